(** A checker for the type discipline, and concrete machines for the theorems about it. *)
From Coq Require Import ZArith List Lia Arith Bool.
Import ListNotations.
From Verif Require Import M_Base M_Heap M_Instr M_VM S_Heap S_VM S_Num S_Cyclic S_Globals S_Types P_Heap P_VM P_Types P_Safe P_Safe6 P_Safe7 X_Machine.
Open Scope Z_scope.

(** * The checker *)

Definition liveb (v : vm) (p : ptr) : bool := (p <? length (objects v))%nat && negb (existsb (Nat.eqb p) (free v)).
Definition pointsb (v : vm) (K : object -> bool) (p : ptr) : bool :=
  liveb v p && match nth_error (objects v) p with Some o => K o | None => false end.
Definition opointsb (v : vm) (K : object -> bool) (p : optr) : bool :=
  match p with Some p => pointsb v K p | None => true end.

Definition is_consb o := match o with OCons _ _ => true | _ => false end.
Definition first_classb o := match o with
  | OCons _ _ | OUpvalue _ | OUpvalueArray _ _ _ | OInternalVector _ _ _ | OBytecode _ _ | OInternalComposite _ _ _ | OInternalString _ => false
  | _ => true end.
Definition is_upvalueb o := match o with OUpvalue _ => true | _ => false end.
Definition is_upvaluesb o := match o with OUpvalueArray _ _ _ => true | _ => false end.
Definition is_elementsb o := match o with OInternalVector _ _ _ => true | _ => false end.
Definition is_instanceb o := match o with OInternalComposite _ _ _ => true | _ => false end.
Definition is_codeb o := match o with OBytecode _ (Some _) => true | _ => false end.
Definition is_textb n o := match o with OInternalString s => n <=? text_length s | _ => false end.
Definition byteb n := (0 <=? n) && (n <? 256).
Definition machine_integerb n := (- 2 ^ 63 <=? n) && (n <? 2 ^ 63).

Fixpoint cellsb (P : optr -> bool) (n : nat) (l : list cell) : bool :=
  match n, l with
  | O, _ => true
  | S n', Cell p :: l' => P p && cellsb P n' l'
  | _, _ => false
  end.
Definition bufferb (P : optr -> bool) (cs : option (list cell)) (len : Z) : bool :=
  (0 <=? len) && (len <=? max_size) && ((len =? 0) || match cs with Some l => cellsb P (Z.to_nat len) l | None => false end).

Definition well_typedb (v : vm) (o : object) : bool :=
  match o with
  | ONone | OBool _ | OFloat _ | OFunction _ | OType _ => true
  | OBytecode _ code => match code with Some b => forallb byteb b | None => true end
  | OInternalString s => (text_length s <=? max_size) && match s with Some b => forallb byteb b | None => true end
  | OInteger n => machine_integerb n
  | OString (Some p) offset len => (0 <=? offset) && (offset <=? len) && (len <=? max_size) && pointsb v (is_textb len) p
  | OString None offset len => (offset =? 0) && (len =? 0)
  | OList l => opointsb v is_consb l
  | OSymbol id s => machine_integerb id && opointsb v (is_textb 0) s
  | OClosure _ b u arity _ => (0 <=? arity) && match b with Some b => pointsb v is_codeb b | None => false end &&
      match u with Some u => pointsb v is_upvaluesb u | None => false end
  | OVector e offset => (0 <=? offset) && (offset <=? max_size) && opointsb v is_elementsb e
  | OComposite c => match c with Some p => pointsb v is_instanceb p | None => false end
  | OUser _ _ ms => forallb (opointsb v (fun _ => true)) ms
  | OCons a d => opointsb v (fun o => first_classb o || is_consb o) a && opointsb v (fun o => first_classb o || is_consb o) d
  | OUpvalue (UpStack _) => true
  | OUpvalue (UpObject p) => match p with Some p => pointsb v first_classb p | None => false end
  | OUpvalue (UpUpvalue p) => opointsb v is_upvalueb p
  | OUpvalueArray _ cs len => bufferb (opointsb v is_upvalueb) cs len && match cs with Some l => zlen l =? len | None => true end
  | OInternalVector cs len ini => ini && bufferb (fun p => match p with Some p => pointsb v first_classb p | None => false end) cs len
  | OInternalComposite _ x f => opointsb v first_classb x && opointsb v first_classb f
  end.

Definition releasedb o := match o with OUpvalueArray _ (Some _) _ | OBytecode _ (Some _) => false | _ => true end.
Fixpoint nodupb (l : list nat) : bool :=
  match l with [] => true | x :: l' => negb (existsb (Nat.eqb x) l') && nodupb l' end.

Definition typedb (v : vm) : bool :=
  forallb (fun p => negb (liveb v p) || match nth_error (objects v) p with Some o => well_typedb v o | None => true end) (seq 0 (length (objects v))) &&
  forallb (fun o => first_classb o && well_typedb v o) (stack v) &&
  forallb (opointsb v is_upvalueb) (ustack v) &&
  forallb (opointsb v first_classb) (globals v) &&
  forallb (fun f => opointsb v is_codeb (fr_bytecode f)) (call_stack v) &&
  opointsb v is_codeb (current_bytecode v) &&
  (zlen (objects v) <? max_size) &&
  nodupb (free v) && forallb (fun p => p <? length (objects v))%nat (free v) &&
  forallb (fun p => match nth_error (objects v) p with Some o => releasedb o | None => true end) (free v).

Lemma existsb_in p l : existsb (Nat.eqb p) l = true <-> In p l.
Proof.
  rewrite existsb_exists. split; [intros [x [H E]]; apply Nat.eqb_eq in E; subst; auto|].
  intros H. exists p. rewrite Nat.eqb_refl. auto.
Qed.
Lemma liveb_ok v p : liveb v p = true <-> live v p.
Proof.
  unfold liveb, live. rewrite andb_true_iff, negb_true_iff, Nat.ltb_lt, <- existsb_in.
  destruct (existsb _ _); intuition congruence.
Qed.
Lemma pointsb_ok v (Kb : object -> bool) (K : object -> Prop) p : (forall o, Kb o = true -> K o) -> pointsb v Kb p = true -> points v K p.
Proof.
  intros H. unfold pointsb. rewrite andb_true_iff, liveb_ok. intros [L E]. split; auto.
  destruct (nth_error _ _) as [o|]; [|discriminate]. exists o. auto.
Qed.
Lemma opointsb_ok v (Kb : object -> bool) (K : object -> Prop) p : (forall o, Kb o = true -> K o) -> opointsb v Kb p = true -> opoints v K p.
Proof. intros H E q ->. eapply pointsb_ok; eauto. Qed.

Ltac kind := let o := fresh in intros o; destruct o; simpl; auto; try discriminate.
Lemma k_cons o : is_consb o = true -> is_cons o. Proof. revert o; kind. Qed.
Lemma k_first o : first_classb o = true -> first_class o. Proof. revert o; kind. Qed.
Lemma k_link o : first_classb o || is_consb o = true -> is_link o.
Proof. rewrite orb_true_iff. intros [H|H]; [left; apply k_first|right; apply k_cons]; auto. Qed.
Lemma k_upvalue o : is_upvalueb o = true -> is_upvalue o. Proof. revert o; kind. Qed.
Lemma k_upvalues o : is_upvaluesb o = true -> is_upvalues o. Proof. revert o; kind. Qed.
Lemma k_elements o : is_elementsb o = true -> is_elements o. Proof. revert o; kind. Qed.
Lemma k_instance o : is_instanceb o = true -> is_instance o. Proof. revert o; kind. Qed.
Lemma k_code o : is_codeb o = true -> is_code o. Proof. destruct o; simpl; try discriminate. destruct code; auto; discriminate. Qed.
Lemma k_text n o : is_textb n o = true -> is_text n o. Proof. destruct o; simpl; try discriminate. apply Z.leb_le. Qed.
Lemma k_byte l : forallb byteb l = true -> Forall S_Types.byte l.
Proof. rewrite forallb_forall, Forall_forall. intros H x Hx. apply H in Hx. unfold byteb in Hx. apply andb_true_iff in Hx as [A B]. split; lia. Qed.
Lemma k_integer n : machine_integerb n = true -> machine_integer n.
Proof. unfold machine_integerb, machine_integer. intros H. apply andb_true_iff in H as [A B]. lia. Qed.

Lemma cellsb_ok (Pb : optr -> bool) (P : optr -> Prop) : (forall p, Pb p = true -> P p) -> forall n l, cellsb Pb n l = true ->
  forall i, (i < n)%nat -> exists p, nth_error l i = Some (Cell p) /\ P p.
Proof.
  intros H. induction n as [|n IH]; intros l E i Hi; [lia|]. destruct l as [|[|p] l]; try discriminate.
  simpl in E. apply andb_true_iff in E as [A B]. destruct i as [|i]; [exists p; auto|]. apply (IH l B i). lia.
Qed.
Lemma bufferb_ok (Pb : optr -> bool) (P : optr -> Prop) cs len : (forall p, Pb p = true -> P p) -> bufferb Pb cs len = true -> buffer P cs len.
Proof.
  intros H. unfold bufferb. rewrite !andb_true_iff. intros [[A B] C]. split; [lia|]. intros Hl.
  destruct (Z.eqb_spec len 0) as [|_]; [lia|]. simpl in C. destruct cs as [l|]; [|discriminate]. exists l. split; auto.
  intros i Hi. eapply cellsb_ok; eauto. lia.
Qed.

Local Hint Resolve pointsb_ok opointsb_ok k_cons k_first k_link k_upvalue k_upvalues k_elements k_instance k_code k_text k_byte k_integer : check.

Lemma well_typedb_ok v o : well_typedb v o = true -> well_typed v o.
Proof.
  destruct o; simpl; auto; rewrite ?andb_true_iff; intros H; auto with check.
  - destruct s as [p|]; rewrite !andb_true_iff in H; [|lia]. destruct H as [[[A B] C] D]. split; [lia|]. split; [lia|]. eauto with check.
  - eauto with check.
  - destruct H. split; eauto with check.
  - destruct bytecode as [b|], upvalues as [u|]; try (destruct H as [[_ H1] H2]; discriminate).
    destruct H as [[A B] C]. split; [lia|]. split; eexists; split; eauto with check.
  - destruct H as [[A B] C]. split; [lia|]. eauto with check.
  - destruct c as [p|]; [|discriminate]. eexists; split; eauto with check.
  - rewrite forallb_forall in H. intros p Hp. apply H in Hp. simpl in Hp. eapply pointsb_ok; eauto. intros; exact I.
  - destruct H. split; (eapply opointsb_ok; [apply k_link|eassumption]).
  - destruct u; auto.
    + destruct p as [p|]; [|discriminate]. eexists; split; eauto with check.
    + eauto with check.
  - destruct H as [A B]. split; [eapply bufferb_ok; eauto; intros; eauto with check|]. intros l ->. lia.
  - destruct H as [A B]. split; auto. eapply bufferb_ok; eauto. intros [p|]; [|discriminate]. intros E. exists p. split; eauto with check.
  - intros b ->. auto with check.
  - destruct H. split; eauto with check.
  - destruct H as [A B]. split; [lia|]. intros b ->. auto with check.
Qed.

Lemma nodupb_ok l : nodupb l = true -> NoDup l.
Proof.
  induction l as [|x l IH]; simpl; [constructor|]. rewrite andb_true_iff, negb_true_iff. intros [A B]. constructor; auto.
  rewrite <- existsb_in. congruence.
Qed.

Lemma typedb_ok v : typedb v = true -> typed v.
Proof.
  unfold typedb. rewrite !andb_true_iff. intros [[[[[[[[[A B] C] D] E] F] G] H] I] J].
  rewrite forallb_forall in A, B, C, D, E, I, J. constructor.
  - intros p o L _ En. specialize (A p). rewrite En in A. apply liveb_ok in L as Lb. rewrite Lb in A.
    apply well_typedb_ok. apply A. apply in_seq. destruct L. lia.
  - intros o Ho. apply B in Ho. apply andb_true_iff in Ho as [X Y]. split; [apply k_first|apply well_typedb_ok]; auto.
  - intros p Hp. apply C in Hp. simpl in Hp. eauto with check.
  - intros p Hp. apply D in Hp. simpl in Hp. eauto with check.
  - intros i c p Hp. apply E in Hp. simpl in Hp. eauto with check.
  - intros p Hp. rewrite Hp in F. simpl in F. eauto with check.
  - lia.
  - split; [apply nodupb_ok; auto|]. intros p Hp. apply I in Hp. apply Nat.ltb_lt. auto.
  - intros p o Hp En. apply J in Hp. rewrite En in Hp. destruct o; simpl in *; auto.
    + destruct upvalues; auto; discriminate.
    + destruct code; auto; discriminate.
Qed.

(** * Concrete machines *)

Definition soundb (base : ptr) (v : vm) : bool :=
  typedb v && (length (globals v) =? length (globals_map v))%nat && nodupb (map Z.to_nat (globals_map v)) &&
  (length (stack v) =? length (ustack v))%nat && match current_bytecode v with Some b => (b =? base)%nat | None => false end.

Lemma soundb_ok base v : soundb base v = true -> sound base v.
Proof.
  unfold soundb. rewrite !andb_true_iff. intros [[[[A B] C] D] E]. split; [apply typedb_ok; auto|]. split; [split|split].
  - apply Nat.eqb_eq; auto.
  - apply nodupb_ok in C. apply NoDup_map_inv in C. auto.
  - apply Nat.eqb_eq; auto.
  - destruct (current_bytecode v); [|discriminate]. apply Nat.eqb_eq in E. congruence.
Qed.

Lemma no_host_polite : polite no_host.
Proof. intros c v T _. exact T. Qed.
Lemma no_host_steady : steady no_host.
Proof. intros c v. simpl. auto. Qed.

(** A machine with byte code, a pair, a vector of two, a string, a closure with one captured variable, a
    composite and a global, running the closure. *)
Definition ex_rich : vm :=
  VM [OBytecode 1 (Some [97; 1; 2]);                             (* 0 *)
      OCons (Some 2%nat) (Some 3%nat); OInteger 4; OCons None None;  (* 1-3 *)
      OInternalVector (Some [Cell (Some 2%nat); Cell (Some 5%nat)]) 2 true; OBool 1;  (* 4-5 *)
      OInternalString (Some [104; 105]);                       (* 6 *)
      OUpvalueArray 2 (Some [Cell (Some 8%nat)]) 1; OUpvalue (UpStack 0);  (* 7-8 *)
      OInternalComposite 21 (Some 2%nat) (Some 10%nat); OClosure 0 (Some 0%nat) (Some 7%nat) 1 true;  (* 9-10 *)
      ONone; ONone; ONone; ONone; ONone]
     [11; 12; 13; 14; 15]%nat
     [OInteger 3; OComposite (Some 9%nat); OString (Some 6%nat) 1 2; OVector (Some 4%nat) 1; OList (Some 1%nat)]
     [None; None; None; None; Some 8%nat]
     [Some 2%nat; Some 5%nat] [7; 8] [Frame 3 (0%nat, 1%nat) (Some 0%nat)] [UARef (Some (7%nat, 2%nat)) 1; UARef None 0]
     (Some 0%nat) 22 3 [].

Lemma ex_rich_sound : sound 0 ex_rich.
Proof. apply soundb_ok. vm_compute. reflexivity. Qed.

(** Three elements, room for the vector and two of them: the collector runs, frees the first two, and
    one of them is left dangling. *)
Definition ex_tight : vm :=
  VM [OBytecode 1 (Some [97]); ONone; ONone; ONone] [1; 2; 3]%nat [OInteger 1; OInteger 2; OInteger 3] [None; None; None]
     [] [] [] [UARef None 0] (Some 0%nat) 20 2 [].

Lemma vector_corrupts : exists v v', sound 0 v /\
  exec no_host 0%nat (PC (0%nat, 1%nat) 1) (IVector [1; 2; 3]) v = (Ok (Continue (PC (0%nat, 1%nat) 1)), v') /\ ~ typed v'.
Proof.
  exists ex_tight. eexists. split; [apply soundb_ok; vm_compute; reflexivity|]. split; [vm_compute; reflexivity|].
  intros T. match type of T with typed ?w => assert (forall o, nth_error (objects w) 1 = Some o -> well_typed w o) as W0
    by (intros o; apply (ty_objects _ _ T 1%nat); [apply liveb_ok; reflexivity|tauto]) end.
  pose proof (W0 _ eq_refl) as W.
  destruct W as [_ [_ W]]. destruct W as [l [E W]]; [lia|]. injection E as <-.
  destruct (W 0%nat) as [p [E1 [q [-> [[_ P] _]]]]]; [simpl; lia|]. injection E1 as <-.
  destruct (W 1%nat) as [p [E1 [q' [-> [[_ P'] _]]]]]; [simpl; lia|]. injection E1 as <-.
  simpl in P, P'. tauto.
Qed.

(** The same with two elements: nothing dangles, but both elements are the same object. *)
Lemma vector_mixes : exists v v' p q, sound 0 v /\ at_pos v 1 (OInteger 1) /\ at_pos v 2 (OInteger 2) /\
  exec no_host 0%nat (PC (0%nat, 1%nat) 1) (IVector [1; 2]) v = (Ok (Continue (PC (0%nat, 1%nat) 1)), v') /\
  hd_error (stack v') = Some (OVector (Some p) 0) /\
  nth_error (objects v') p = Some (OInternalVector (Some [Cell (Some q); Cell (Some q)]) 2 true) /\
  nth_error (objects v') q = Some (OInteger 2).
Proof.
  exists (VM [OBytecode 1 (Some [97]); ONone; ONone] [1; 2]%nat [OInteger 1; OInteger 2] [None; None]
     [] [] [] [UARef None 0] (Some 0%nat) 20 2 []).
  eexists; eexists; eexists. split; [apply soundb_ok; vm_compute; reflexivity|].
  split; [split; [lia|reflexivity]|]. split; [split; [lia|reflexivity]|].
  split; [vm_compute; reflexivity|]. split; [reflexivity|]. split; reflexivity.
Qed.

(** A vector of three was cut to one element, its other elements collected, and an old reference to
    its third element is cut again: the vector grows to two. *)
Definition ex_regrow : vm :=
  VM [OBytecode 1 (Some [97]); OInternalVector (Some [Cell (Some 2%nat); Cell (Some 3%nat); Cell (Some 4%nat)]) 1 true;
      OInteger 5; ONone; ONone] [3; 4]%nat [OVector (Some 1%nat) 2; OList None] [None; None]
     [] [] [] [UARef None 0] (Some 0%nat) 20 2 [].

Lemma set_cdr_corrupts : exists v v', sound 0 v /\
  exec no_host 0%nat (PC (0%nat, 1%nat) 1) (IBin BSetCdr 2 1) v = (Ok (Continue (PC (0%nat, 1%nat) 1)), v') /\ ~ typed v'.
Proof.
  exists ex_regrow. eexists. split; [apply soundb_ok; vm_compute; reflexivity|]. split; [vm_compute; reflexivity|].
  intros T. match type of T with typed ?w => assert (forall o, nth_error (objects w) 1 = Some o -> well_typed w o) as W0
    by (intros o; apply (ty_objects _ _ T 1%nat); [apply liveb_ok; reflexivity|tauto]) end.
  pose proof (W0 _ eq_refl) as W.
  destruct W as [_ [_ W]]. destruct W as [l [E W]]; [lia|]. injection E as <-.
  destruct (W 1%nat) as [p [E1 [q' [-> [[_ P'] _]]]]]; [simpl; lia|]. injection E1 as <-. simpl in P'. tauto.
Qed.

(** (apply f '(1 . 2)) where f takes one argument and a rest: the rest is a list whose first pair is the integer. *)
Definition ex_dotted : vm :=
  VM [OBytecode 1 (Some [97]); OUpvalueArray 2 None 0; OInteger 1; OInteger 2; OCons (Some 2%nat) (Some 3%nat)]
     [] [OList (Some 4%nat); OClosure 0 (Some 0%nat) (Some 1%nat) 1 true] [None; None]
     [] [] [] [UARef None 0] (Some 0%nat) 20 2 [].

Lemma apply_corrupts : exists v c v', sound 0 v /\
  exec no_host 0%nat (PC (0%nat, 1%nat) 1) (IApply 2 0) v = (Ok (Continue c), v') /\ ~ typed v'.
Proof.
  exists ex_dotted. eexists; eexists. split; [apply soundb_ok; vm_compute; reflexivity|]. split; [vm_compute; reflexivity|].
  intros T. destruct (ty_stack _ _ T (OList (Some 3%nat))) as [_ W]; [simpl; auto|].
  destruct (W 3%nat eq_refl) as [_ [o [E K]]]. injection E as <-. exact K.
Qed.

(** A closure whose only remaining trace is the call it is running, and which creates a closure that
    shares its captured variable: the collector frees the array of captured variables first. *)
Definition ex_unrooted : vm :=
  VM [OBytecode 1 (Some [97]); OUpvalueArray 2 (Some [Cell (Some 2%nat)]) 1; OUpvalue (UpObject (Some 3%nat)); OInteger 7]
     [] [] [] [] [] [Frame 0 (0%nat, 1%nat) (Some 0%nat)] [UARef (Some (1%nat, 2%nat)) 1; UARef None 0] (Some 0%nat) 20 3 [].

Lemma push_closure_corrupts : exists v v', sound 0 v /\
  exec no_host 0%nat (PC (0%nat, 1%nat) 1) (IPushClosure false 0 0 [-1]) v = (UB, v') /\
  ~ undefined_case 0 (PC (0%nat, 1%nat) 1) v (IPushClosure false 0 0 [-1]).
Proof.
  exists ex_unrooted. eexists. split; [apply soundb_ok; vm_compute; reflexivity|]. split; [vm_compute; reflexivity|].
  intros [H|[c [[<-|[]] [_ H]]]]; apply H.
  - eexists; split; reflexivity.
  - do 6 eexists. split; [reflexivity|]. split; [reflexivity|]. lia.
Qed.

(** A vector instruction that fails half way leaves its unfinished vector on the stack. *)
Lemma vector_leaves : exists v e v', sound 0 v /\
  exec no_host 0%nat (PC (0%nat, 1%nat) 1) (IVector [1; 9]) v = (Err e, v') /\ ~ typed v'.
Proof.
  exists ex_tight. eexists; eexists. split; [apply soundb_ok; vm_compute; reflexivity|]. split; [vm_compute; reflexivity|].
  intros T. match type of T with typed ?w => assert (forall o, nth_error (objects w) 1 = Some o -> well_typed w o) as W0
    by (intros o; apply (ty_objects _ _ T 1%nat); [apply liveb_ok; reflexivity|tauto]) end.
  pose proof (W0 _ eq_refl) as W.
  destruct W as [W _]. discriminate.
Qed.

(** * New machines and the start of an execution *)

Lemma init_typed n : Z.of_nat n < max_size -> typed (vm_init n) /\ globals_ok (vm_init n) /\ in_step (vm_init n).
Proof.
  intros H. split; [|split; [split; [reflexivity|constructor]|reflexivity]].
  constructor; simpl; try contradiction; try discriminate.
  - intros p o [L F] _ En. exfalso. apply F. simpl in *. rewrite repeat_length in L. rewrite <- in_rev. apply in_seq. lia.
  - unfold zlen. rewrite repeat_length. auto.
  - split; [apply NoDup_rev, seq_NoDup|]. intros p Hp. rewrite <- in_rev in Hp. apply in_seq in Hp. rewrite repeat_length. lia.
  - intros p o _ En. apply nth_error_In, repeat_spec in En. subst. exact I.
Qed.

Lemma start_sound v code base v1 : typed v -> globals_ok v -> in_step v -> code <> [] -> Forall S_Types.byte code ->
  push_object (OBytecode 0 (Some code)) v = (Ok base, v1) -> sound base (set_current v1 (Some base)).
Proof.
  intros T G S Hc B E.
  assert (sem v (alloc (OBytecode 0 (Some code))) (fun r v' => exists p, r = Some p /\ typed v' /\ new_object (OBytecode 0 (Some code)) v p v') typed False) as H.
  { apply sem_alloc; auto; [exact I| |intros p R; inversion R]. intros b Eb. injection Eb as <-. auto. }
  unfold sem, alloc, mbind in H. rewrite E in H. simpl in H. destruct H as [p [Ep [T1 N]]]. injection Ep as <-.
  pose proof (no_roots _ _ _ _ N) as (A1 & A2 & A3 & A4 & A5 & A6 & A7 & A8).
  split; [|split; [|split]]; try reflexivity.
  - assert (points v1 is_code base) as P.
    { apply (new_points _ _ _ _ _ N). intros n. simpl. destruct code; [congruence|exact I]. }
    apply (typed_roots _ v1); try exact T1; try apply T1; [split; reflexivity|].
    simpl. intros p Ep. injection Ep as <-. auto.
  - unfold globals_ok in *. simpl. congruence.
  - unfold in_step in *. simpl. congruence.
Qed.

(** An instruction outcome, spelled out. *)
Lemma exec_outcome host base next i v : sound base v -> polite host -> encodable i -> fits_memory v i -> harmless v i ->
  match exec host base next i v with
  | (Ok _, v') => typed v'
  | (Err _, v') => unfinished i = false -> typed v'
  | (UB, _) => undefined_case base next v i
  | (NoFuel, _) => True
  end.
Proof. exact (sem_exec host base next i v). Qed.

Definition ex_next : pc := PC (0%nat, 1%nat) 1.
Lemma ex_rich_instr : encodable (IBin BCons 1 5) /\ fits_memory ex_rich (IBin BCons 1 5) /\ harmless ex_rich (IBin BCons 1 5) /\
  exists v', exec no_host 0%nat ex_next (IBin BCons 1 5) ex_rich = (Ok (Continue ex_next), v').
Proof. split; [exact I|]. split; [exact I|]. split; [exact I|]. eexists. vm_compute. reflexivity. Qed.

(** Calling the composite's closure with a rest argument. *)
Lemma ex_rich_call : encodable (IFuncall 2 1) /\ fits_memory ex_rich (IFuncall 2 1) /\ harmless ex_rich (IFuncall 2 1) /\
  exists c v', exec no_host 0%nat ex_next (IFuncall 2 1) ex_rich = (Ok (Continue c), v').
Proof. split; [split; lia|]. split; [exact I|]. split; [exact I|]. eexists; eexists. vm_compute. reflexivity. Qed.

(** nil, nil, cons: three steps of byte code. *)
Definition ex_prog : vm :=
  VM [OBytecode 1 (Some [166; 166; 91; 1; 2]); ONone; ONone; ONone] [1; 2; 3]%nat [] [] [] [] [] [UARef None 0] (Some 0%nat) 20 2 [].
Lemma ex_prog_run : sound 0 ex_prog /\ exists v',
  careful_run no_host 0 (PC (0%nat, 1%nat) 0) ex_prog (PC (0%nat, 1%nat) 5) v' /\ stack v' = [OList (Some 1%nat); OList None; OList None].
Proof.
  split; [apply soundb_ok; vm_compute; reflexivity|].
  eexists. split.
  - eapply careful_step; [eapply careful_step; [eapply careful_step; [apply careful_start|..]|..]|..].
    1: eexists; eexists; split; [reflexivity|]; split; [vm_compute; reflexivity|reflexivity].
    1-2: exact I.
    1: vm_compute; reflexivity.
    1: eexists; eexists; split; [reflexivity|]; split; [vm_compute; reflexivity|reflexivity].
    1-2: exact I.
    1: vm_compute; reflexivity.
    1: eexists; eexists; split; [reflexivity|]; split; [vm_compute; reflexivity|reflexivity].
    1-2: exact I.
    vm_compute; reflexivity.
  - reflexivity.
Qed.
