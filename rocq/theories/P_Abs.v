(** An abstract machine for the code of core programs: positions in the assembly program, values
    instead of objects. *)
From Coq Require Import ZArith List Bool Lia Arith ZifyBool ZifyNat.
From Verif Require Import M_Base M_Trie M_Instr M_VM M_Asm S_Asm S_Compile P_Peep.
Import ListNotations.
Open Scope Z_scope.
Open Scope list_scope.

Definition pick (stk : list value) (i : Z) : option value :=
  if 1 <=? i then nth_error stk (Z.to_nat (i - 1)) else None.
Definition need {A} (o : option A) : res A := match o with Some a => Ok a | None => UB end.
Definition globs := Z -> option value.
Definition gset (G : globs) (k : Z) (v : value) : globs := fun j => if k =? j then Some v else G j.
Definition apop (stk : list value) (n : Z) : option (list value) :=
  if (0 <=? n) && (n <=? zlength stk) then Some (skipn (Z.to_nat n) stk) else None.

Fixpoint find_label (prog : list ainstr) (l : Z) (k : nat) : option nat :=
  match prog with
  | [] => None
  | a :: r => if match a with ALabel m => m =? l | _ => false end then Some k else find_label r l (S k)
  end.
Definition target (prog : list ainstr) (l : Z) : res nat := need (find_label prog l 0).

(** Where to go on, the stack and the globals after one instruction. *)
Definition astep (prog : list ainstr) (c : nat * list value * globs) : res (nat * list value * globs) :=
  let '(pc, stk, G) := c in
  match nth_error prog pc with
  | None => UB
  | Some a =>
    match a with
    | AInternalNop | ALabel _ => Ok (S pc, stk, G)
    | APushString s => Ok (S pc, VString s :: stk, G)
    | APushBoolean n => Ok (S pc, VBool (if n =? 0 then 0 else 1) :: stk, G)
    | APushInteger n => Ok (S pc, VInt n :: stk, G)
    | APushFloat b => Ok (S pc, VFloat (float_of_bits b) :: stk, G)
    | APushIndex i => v <- need (pick stk i) ;; Ok (S pc, v :: stk, G)
    | APushSymbol _ s => Ok (S pc, VSymbol s :: stk, G)
    | APushGlobal k => match G k with Some v => Ok (S pc, v :: stk, G) | None => Err invalidValue end
    | ASetGlobal i k => v <- need (pick stk i) ;; Ok (S pc, stk, gset G k v)
    | AMove i j =>
      v <- need (pick stk i) ;; _ <- need (pick stk j) ;;
      Ok (S pc, list_set stk (Z.to_nat (j - 1)) v, G)
    | AUn u i => v <- need (pick stk i) ;; r <- apply1 u v ;; Ok (S pc, r :: stk, G)
    | ABin b i j =>
      v <- need (pick stk i) ;; w <- need (pick stk j) ;;
      r <- apply2 b v w ;; Ok (S pc, r :: stk, G)
    | APop n => s <- need (apop stk n) ;; Ok (S pc, s, G)
    | ANil => Ok (S pc, VNil :: stk, G)
    | AJump l => k <- target prog l ;; Ok (k, stk, G)
    | ABrnz l n =>
      v <- need (pick stk 1) ;; s <- need (apop stk n) ;;
      t <- truth v ;;
      if t : bool then k <- target prog l ;; Ok (k, s, G) else Ok (S pc, s, G)
    | _ => UB
    end
  end.

Inductive asteps (prog : list ainstr) : nat * list value * globs -> nat * list value * globs -> Prop :=
| as_none c : asteps prog c c
| as_more c c1 c2 : astep prog c = Ok c1 -> asteps prog c1 c2 -> asteps prog c c2.

Lemma asteps_trans prog a b c : asteps prog a b -> asteps prog b c -> asteps prog a c.
Proof. induction 1; eauto using as_more. Qed.
Lemma asteps_one prog a b : astep prog a = Ok b -> asteps prog a b.
Proof. eauto using as_more, as_none. Qed.
Lemma asteps_next prog a b c : asteps prog a c -> a <> c -> astep prog a = Ok b -> asteps prog b c.
Proof. intros H N E. destruct H as [|c c1 c2 E1 H]; [congruence|]. rewrite E1 in E. injection E as <-. exact H. Qed.

(** * Calls *)
(** The functions of a program: where the code of each starts, and how many arguments it takes. *)
Definition entries := Z -> option (nat * Z).
Definition no_entries : entries := fun _ => None.

(** Running with calls: the code of a function runs on the stack of its caller up to its return. *)
Inductive csteps (entry : entries) (prog : list ainstr) : nat * list value * globs -> nat * list value * globs -> Prop :=
| cs_none c : csteps entry prog c c
| cs_more c c1 c2 : astep prog c = Ok c1 -> csteps entry prog c1 c2 -> csteps entry prog c c2
| cs_call pc stk G i n k pos r v rest G1 q rest' c2 :
    nth_error prog pc = Some (AFuncall i n) -> pick stk i = Some (VFun k) -> entry k = Some (pos, n) ->
    csteps entry prog (pos, stk, G) (r, v :: rest, G1) -> nth_error prog r = Some (AReturn q) -> apop rest q = Some rest' ->
    csteps entry prog (S pc, v :: rest', G1) c2 -> csteps entry prog (pc, stk, G) c2
| cs_closure pc stk G l n k pos c2 :
    nth_error prog pc = Some (APushClosure false l n []) -> target prog l = Ok pos -> entry k = Some (pos, n) ->
    csteps entry prog (S pc, VFun k :: stk, G) c2 -> csteps entry prog (pc, stk, G) c2.

(** What cannot be called with [n] arguments. *)
Definition uncallable (entry : entries) (v : value) (n : Z) : Prop :=
  match v with
  | VFun k => exists pos m, entry k = Some (pos, m) /\ m <> n
  | VOpaque => False
  | _ => True
  end.
Inductive crashes (entry : entries) (prog : list ainstr) : nat * list value * globs -> error -> Prop :=
| cr_step c er : astep prog c = Err er -> crashes entry prog c er
| cr_callee pc stk G i n v : nth_error prog pc = Some (AFuncall i n) -> pick stk i = Some v -> uncallable entry v n ->
    crashes entry prog (pc, stk, G) invalidValue
| cr_inside pc stk G i n k pos c1 er : nth_error prog pc = Some (AFuncall i n) -> pick stk i = Some (VFun k) -> entry k = Some (pos, n) ->
    csteps entry prog (pos, stk, G) c1 -> crashes entry prog c1 er -> crashes entry prog (pc, stk, G) er.

Lemma csteps_trans entry prog a b c : csteps entry prog a b -> csteps entry prog b c -> csteps entry prog a c.
Proof. induction 1; eauto using cs_more, cs_call, cs_closure. Qed.
Lemma csteps_one entry prog a b : astep prog a = Ok b -> csteps entry prog a b.
Proof. eauto using cs_more, cs_none. Qed.
Lemma funcall_stuck prog pc stk G i n : nth_error prog pc = Some (AFuncall i n) -> astep prog (pc, stk, G) = UB.
Proof. intros H. unfold astep. rewrite H. reflexivity. Qed.
Lemma csteps_next entry prog a b c : csteps entry prog a c -> a <> c -> astep prog a = Ok b -> csteps entry prog b c.
Proof.
  intros H N E. destruct H as [|c c1 c2 E1 H|pc stk G i n k pos r v rest G1 q rest' c2 H1 H2 H3 H4 H5 H6 H7|pc stk G l n k pos c2 H1 H2 H3 H4]; [congruence| | |].
  - rewrite E1 in E. injection E as <-. exact H.
  - rewrite (funcall_stuck _ _ _ _ _ _ H1) in E. discriminate.
  - unfold astep in E. rewrite H1 in E. discriminate.
Qed.
Lemma crashes_stops entry prog a b er : crashes entry prog a er -> astep prog a = Ok b -> False.
Proof.
  intros H E. destruct H as [c er H|pc stk G i n v H1 H2 H3|pc stk G i n k pos c1 er H1 H2 H3 H4 H5]; try congruence;
    rewrite (funcall_stuck _ _ _ _ _ _ H1) in E; discriminate.
Qed.
Lemma csteps_asteps prog a b : csteps no_entries prog a b -> asteps prog a b.
Proof. induction 1; eauto using as_none, as_more; discriminate. Qed.
Lemma crashes_astep prog c er : crashes no_entries prog c er -> (forall i n, ~ In (AFuncall i n) prog) -> astep prog c = Err er.
Proof.
  intros H N. destruct H as [c er H|pc stk G i n v H1 H2 H3|pc stk G i n k pos c1 er H1 H2 H3 H4 H5]; [exact H| |];
    elim (N i n); eapply nth_error_In, H1.
Qed.

(** * Labels *)
Definition labels_once (prog : list ainstr) : Prop := forall j k l,
  nth_error prog j = Some (ALabel l) -> nth_error prog k = Some (ALabel l) -> j = k.

Lemma find_label_spec prog l : forall k j, find_label prog l k = Some j ->
  (k <= j)%nat /\ nth_error prog (j - k) = Some (ALabel l).
Proof.
  induction prog as [|a r IH]; cbn [find_label]; intros k j H; [discriminate|].
  destruct (match a with ALabel m => m =? l | _ => false end) eqn:E.
  - injection H as <-. split; [lia|]. rewrite Nat.sub_diag. destruct a; try discriminate. apply Z.eqb_eq in E. subst. reflexivity.
  - destruct (IH _ _ H) as [H1 H2]. split; [lia|]. replace (j - k)%nat with (S (j - S k)) by lia. exact H2.
Qed.
Lemma find_label_none prog l : forall k, find_label prog l k = None -> ~ In (ALabel l) prog.
Proof.
  induction prog as [|a r IH]; cbn [find_label]; intros k H; [intros []|].
  destruct (match a with ALabel m => m =? l | _ => false end) eqn:E; [discriminate|].
  intros [-> | I]; [rewrite Z.eqb_refl in E; discriminate|]. exact (IH _ H I).
Qed.
Lemma target_at prog l k : labels_once prog -> nth_error prog k = Some (ALabel l) -> target prog l = Ok k.
Proof.
  intros O H. unfold target. destruct (find_label prog l 0) as [j|] eqn:E.
  - apply find_label_spec in E as [_ E]. rewrite Nat.sub_0_r in E. rewrite (O _ _ _ E H). reflexivity.
  - exfalso. eapply find_label_none; [exact E|]. eapply nth_error_In, H.
Qed.

(** * The push-pop optimisation on the abstract machine *)
Lemma rewritten_label l a b a' b' post : a <> ALabel l -> b <> ALabel l -> a' <> ALabel l -> b' <> ALabel l ->
  forall pre k, find_label (pre ++ a' :: b' :: post) l k = find_label (pre ++ a :: b :: post) l k.
Proof.
  intros A B A' B'.
  assert (forall x, x <> ALabel l -> match x with ALabel m => m =? l | _ => false end = false) as K.
  { intros x N. destruct x; try reflexivity. destruct (Z.eqb_spec label l); [subst; contradiction|reflexivity]. }
  induction pre as [|x r IH]; intros k; cbn [app find_label].
  - rewrite !K by assumption. reflexivity.
  - destruct (match x with ALabel m => m =? l | _ => false end); [reflexivity|]. apply IH.
Qed.
Section Rewrite.
  Variables (pre : list ainstr) (a b a' b' : ainstr) (post : list ainstr).
  Let P := pre ++ a :: b :: post.
  Let P' := pre ++ a' :: b' :: post.
  Hypothesis Hl : forall l, a <> ALabel l /\ b <> ALabel l /\ a' <> ALabel l /\ b' <> ALabel l.
  Hypothesis Hstep : forall stk G c2 stk1 G1,
    astep P (length pre, stk, G) = Ok (S (length pre), stk1, G1) ->
    astep P (S (length pre), stk1, G1) = Ok c2 -> asteps P' (length pre, stk, G) c2.
  Hypothesis Hseq : forall stk G c1, astep P (length pre, stk, G) = Ok c1 -> fst (fst c1) = S (length pre).

  Lemma same_label l k : find_label P' l k = find_label P l k.
  Proof. destruct (Hl l) as [A [B [A' B']]]. apply rewritten_label; assumption. Qed.
  Lemma same_at pc : pc <> length pre -> pc <> S (length pre) -> nth_error P' pc = nth_error P pc.
  Proof.
    intros N1 N2. unfold P, P'. destruct (Nat.lt_ge_cases pc (length pre)).
    - rewrite !nth_error_app1 by lia. reflexivity.
    - rewrite !nth_error_app2 by lia. destruct (pc - length pre)%nat as [|[|k]] eqn:E; [lia|lia|reflexivity].
  Qed.
  Lemma same_step pc stk G : pc <> length pre -> pc <> S (length pre) -> astep P' (pc, stk, G) = astep P (pc, stk, G).
  Proof.
    intros N1 N2. unfold astep. rewrite same_at by assumption. unfold target. 
    destruct (nth_error P pc) as [x|]; [|reflexivity]. destruct x; try reflexivity; rewrite ?same_label; reflexivity.
  Qed.
  Lemma jump_ok pc stk G pc1 stk1 G1 : pc <> length pre -> astep P (pc, stk, G) = Ok (pc1, stk1, G1) -> pc1 <> S (length pre).
  Proof.
    intros N E ->. unfold astep in E. destruct (nth_error P pc) as [x|] eqn:X; [|discriminate].
    assert (forall l k, target P l = Ok k -> k <> S (length pre)) as T.
    { intros l k E2. unfold target in E2. destruct (find_label P l 0) as [j|] eqn:F; [|discriminate]. injection E2 as ->.
      apply find_label_spec in F as [_ F]. rewrite Nat.sub_0_r in F. intros ->. unfold P in F.
      rewrite nth_error_app2 in F by lia. replace (S (length pre) - length pre)%nat with 1%nat in F by lia.
      cbn in F. injection F as F. destruct (Hl l) as [_ [B _]]. contradiction. }
    destruct x; cbn [need bind] in E; try discriminate E; try (injection E as E _ _; lia);
      repeat match type of E with
        | bind ?m _ = _ => destruct m eqn:?; cbn [bind] in E; try discriminate E
        | (match ?m with _ => _ end) = _ => destruct m eqn:?; cbn [bind] in E; try discriminate E
        end; try (injection E as E _ _; lia); injection E as E _ _; subst; eapply T; eauto.
  Qed.
  Inductive nsteps : nat -> nat * list value * globs -> nat * list value * globs -> Prop :=
  | ns_none c : nsteps 0 c c
  | ns_more n c c1 c2 : astep P c = Ok c1 -> nsteps n c1 c2 -> nsteps (S n) c c2.
  Lemma nsteps_of c d : asteps P c d -> exists n, nsteps n c d.
  Proof. induction 1 as [|c c1 c2 E H [n IH]]; [exists 0%nat; constructor|exists (S n); econstructor; eauto]. Qed.
  Lemma rewritten c d : asteps P c d -> fst (fst c) <> S (length pre) -> fst (fst d) <> S (length pre) -> asteps P' c d.
  Proof.
    intros H. destruct (nsteps_of _ _ H) as [n N]. clear H. revert c d N.
    induction n as [n IH] using lt_wf_ind. intros c d N Nc Nd. inversion N as [|n1 c0 c1 c2 E N1]; subst; [constructor|].
    destruct c as [[pc stk] G]. destruct c1 as [[pc1 stk1] G1]. cbn [fst] in *.
    destruct (Nat.eq_dec pc (length pre)) as [-> | Npc].
    - pose proof (Hseq _ _ _ E) as Ec. cbn [fst] in Ec. subst pc1.
      inversion N1 as [|n2 c0 c2 c3 E2 N2]; subst; [cbn [fst] in Nd; contradiction|].
      eapply asteps_trans; [eapply Hstep; eassumption|]. eapply (IH n2); [lia|exact N2| |exact Nd].
      destruct c2 as [[pc2 stk2] G2]. eapply jump_ok; [|exact E2]. lia.
    - econstructor; [rewrite same_step by assumption; exact E|]. eapply (IH n1); [lia|exact N1| |exact Nd].
      eapply jump_ok; [exact Npc|exact E].
  Qed.
End Rewrite.

Lemma at_first pre (a : ainstr) post : nth_error (pre ++ a :: post) (length pre) = Some a.
Proof. rewrite nth_error_app2, Nat.sub_diag by lia. reflexivity. Qed.
Lemma at_second pre (a b : ainstr) post : nth_error (pre ++ a :: b :: post) (S (length pre)) = Some b.
Proof. rewrite nth_error_app2 by lia. replace (S (length pre) - length pre)%nat with 1%nat by lia. reflexivity. Qed.
Lemma push_step P pc a stk G c : nth_error P pc = Some a -> is_push a = true -> astep P (pc, stk, G) = Ok c ->
  exists v, c = (S pc, v :: stk, G).
Proof.
  intros H Pu E. unfold astep in E. rewrite H in E. destruct a; try discriminate Pu; try discriminate E; try (injection E as <-; eauto).
  - destruct (pick stk i); [|discriminate]. injection E as <-. eauto.
  - destruct (G key); [|discriminate]. injection E as <-. eauto.
Qed.
Lemma pop_step P pc n stk G c : nth_error P pc = Some (APop n) -> astep P (pc, stk, G) = Ok c ->
  0 <= n <= zlength stk /\ c = (S pc, skipn (Z.to_nat n) stk, G).
Proof.
  intros H E. unfold astep in E. rewrite H in E. unfold apop in E.
  destruct ((0 <=? n) && (n <=? zlength stk)) eqn:K; [|discriminate]. injection E as <-. split; [lia|reflexivity].
Qed.
Lemma pop_steps P pc n stk G : nth_error P pc = Some (APop n) -> 0 <= n <= zlength stk ->
  astep P (pc, stk, G) = Ok (S pc, skipn (Z.to_nat n) stk, G).
Proof.
  intros H K. unfold astep. rewrite H. unfold apop. destruct ((0 <=? n) && (n <=? zlength stk)) eqn:E; [reflexivity|lia].
Qed.
Lemma nop_step P pc stk G : nth_error P pc = Some AInternalNop -> astep P (pc, stk, G) = Ok (S pc, stk, G).
Proof. intros H. unfold astep. rewrite H. reflexivity. Qed.
Lemma push_not_label a l : is_push a = true -> a <> ALabel l.
Proof. intros H ->. discriminate. Qed.

Definition positive_pops (prog : list ainstr) : Prop := forall n, In (APop n) prog -> 1 <= n.
Lemma pops_nonneg' prog : positive_pops prog -> 0 <= pops prog.
Proof.
  intros H. induction prog as [|a r IH]; cbn; [lia|].
  assert (0 <= pops r) by (apply IH; intros n I; apply H; right; exact I).
  destruct a; try assumption. assert (1 <= n) by (apply H; left; reflexivity). fold (pops r). lia.
Qed.
Lemma halt_not_pop P k n : nth_error P k = Some AHalt -> nth_error P k = Some (APop n) -> False.
Proof. congruence. Qed.

Lemma peephole_steps : forall prog a pre c d, positive_pops (a :: prog) -> pops (a :: prog) < 2 ^ 31 ->
  asteps (pre ++ a :: prog) c d -> fst (fst c) = O -> nth_error (pre ++ a :: prog) (fst (fst d)) = Some AHalt ->
  asteps (pre ++ peephole_from a prog) c d /\ nth_error (pre ++ peephole_from a prog) (fst (fst d)) = Some AHalt.
Proof.
  induction prog as [|b prog IH]; intros a pre c d Pp Pb H Hc Hd; [auto|].
  assert (forall a, (pre ++ [a]) ++ b :: prog = pre ++ a :: b :: prog) as App1 by (intros; rewrite <- app_assoc; reflexivity).
  assert (asteps (pre ++ a :: peephole_from b prog) c d /\ nth_error (pre ++ a :: peephole_from b prog) (fst (fst d)) = Some AHalt) as Keep.
  { specialize (IH b (pre ++ [a]) c d). rewrite !App1 in IH. rewrite <- !app_assoc in IH. apply IH; try assumption.
    - intros n I. apply Pp. right. exact I.
    - assert (0 <= pops [a]) by (apply pops_nonneg'; intros n [-> | []]; apply Pp; left; reflexivity).
      unfold pops in *. cbn [fold_right] in *. destruct a; lia. }
  cbn [peephole_from]. destruct b; try exact Keep. destruct (is_push a) eqn:Pu.
  - assert (1 <= n) as Hn by (apply Pp; right; left; reflexivity).
    set (b' := if n - 1 =? 0 then AInternalNop else APop (n - 1)) in *.
    assert (Z.to_nat (n - 1) + 1 = Z.to_nat n)%nat as En by lia.
    assert (fst (fst d) <> S (length pre)) as Dn.
    { intros E. rewrite E, at_second in Hd. discriminate. }
    assert (fst (fst d) <> length pre) as Dn0.
    { intros E. rewrite E, at_first in Hd. injection Hd as ->. discriminate. }
    assert (asteps (pre ++ AInternalNop :: b' :: prog) c d) as H1.
    { eapply rewritten; [| | |exact H| |exact Dn].
      - intros l. repeat split; try discriminate; [apply push_not_label; exact Pu|]. unfold b'. destruct (n - 1 =? 0); discriminate.
      - intros stk G c2 stk1 G1 E1 E2. apply (push_step _ _ a) in E1 as [v E1]; [|apply at_first|exact Pu]. injection E1 as -> ->.
        apply (pop_step _ _ n) in E2 as [K ->]; [|apply at_second].
        eapply as_more; [apply nop_step, at_first|]. 
        assert (skipn (Z.to_nat n) (v :: stk) = skipn (Z.to_nat (n - 1)) stk) as ->.
        { rewrite <- En. rewrite Nat.add_1_r. reflexivity. }
        unfold b'. destruct (Z.eqb_spec (n - 1) 0) as [E|E].
        + rewrite E. cbn [Z.to_nat skipn]. eapply as_more; [apply nop_step, at_second|constructor].
        + eapply as_more; [apply pop_steps with (n := n - 1); [apply at_second|]|constructor].
          unfold zlength in *. cbn [length] in K. lia.
      - intros stk G c1 E. apply (push_step _ _ a) in E as [v ->]; [reflexivity|apply at_first|exact Pu].
      - rewrite Hc. discriminate. }
    specialize (IH b' (pre ++ [AInternalNop]) c d). rewrite <- !app_assoc in IH. cbn [app] in IH. apply IH; try assumption.
    + intros m [E|I]; [|apply Pp; right; right; exact I]. unfold b' in E. destruct (Z.eqb_spec (n - 1) 0); [discriminate|]. injection E as <-. lia.
    + unfold pops in *. cbn [fold_right] in *. unfold b'. destruct (Z.eqb_spec (n - 1) 0); destruct a; try discriminate Pu; lia.
    + rewrite <- Hd. clear - Dn Dn0. destruct (Nat.lt_ge_cases (fst (fst d)) (length pre)).
      * rewrite !nth_error_app1 by lia. reflexivity.
      * rewrite !nth_error_app2 by lia. destruct (fst (fst d) - length pre)%nat as [|[|k]] eqn:E; [lia|lia|reflexivity].
  - destruct a; try exact Keep.
    assert (1 <= n) as Hn by (apply Pp; right; left; reflexivity).
    assert (1 <= n0) as Hn0 by (apply Pp; left; reflexivity).
    assert (0 <= pops prog) as Hp by (apply pops_nonneg'; intros m I; apply Pp; right; right; exact I).
    assert (to_int (n0 + n) = n0 + n) as ->.
    { unfold pops in *. cbn [fold_right] in Pb. unfold to_int. rewrite Z.mod_small; lia. }
    assert (fst (fst d) <> S (length pre)) as Dn.
    { intros E. rewrite E, at_second in Hd. discriminate. }
    assert (fst (fst d) <> length pre) as Dn0.
    { intros E. rewrite E, at_first in Hd. discriminate. }
    assert (asteps (pre ++ AInternalNop :: APop (n0 + n) :: prog) c d) as H1.
    { eapply rewritten; [| | |exact H| |exact Dn].
      - intros l. repeat split; discriminate.
      - intros stk G c2 stk1 G1 E1 E2. apply (pop_step _ _ n0) in E1 as [K1 E1]; [|apply at_first]. injection E1 as -> ->.
        apply (pop_step _ _ n) in E2 as [K ->]; [|apply at_second].
        eapply as_more; [apply nop_step, at_first|]. rewrite skipn_twice.
        unfold zlength in *. rewrite skipn_length in K.
        replace (Z.to_nat n0 + Z.to_nat n)%nat with (Z.to_nat (n0 + n)) by lia.
        eapply as_more; [apply pop_steps with (n := n0 + n); [apply at_second|]|constructor]. unfold zlength. lia.
      - intros stk G c1 E. apply (pop_step _ _ n0) in E as [_ ->]; [reflexivity|apply at_first].
      - rewrite Hc. discriminate. }
    specialize (IH (APop (n0 + n)) (pre ++ [AInternalNop]) c d). rewrite <- !app_assoc in IH. cbn [app] in IH. apply IH; try assumption.
    + intros m [E|I]; [|apply Pp; right; right; exact I]. injection E as <-. lia.
    + unfold pops in *. cbn [fold_right] in *. lia.
    + rewrite <- Hd. clear - Dn Dn0. destruct (Nat.lt_ge_cases (fst (fst d)) (length pre)).
      * rewrite !nth_error_app1 by lia. reflexivity.
      * rewrite !nth_error_app2 by lia. destruct (fst (fst d) - length pre)%nat as [|[|k]] eqn:E; [lia|lia|reflexivity].
Qed.
Theorem peephole_asteps prog stk G d : positive_pops prog -> pops prog < 2 ^ 31 ->
  asteps prog (O, stk, G) d -> nth_error prog (fst (fst d)) = Some AHalt ->
  asteps (peephole prog) (O, stk, G) d /\ nth_error (peephole prog) (fst (fst d)) = Some AHalt.
Proof.
  intros Pp Pb H Hd. destruct prog as [|a prog]; [auto|]. exact (peephole_steps prog a [] _ d Pp Pb H eq_refl Hd).
Qed.
