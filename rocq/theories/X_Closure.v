(** Concrete closures and captured variables. *)
From Coq Require Import ZArith List Lia Arith Bool ZifyBool ZifyNat.
Import ListNotations.
From Verif Require Import M_Base M_Heap M_Instr M_VM S_Heap S_VM S_Num S_Types S_Data S_Closure P_Heap P_Types P_Safe P_Safe7 P_Closure P_Closure2 P_Closure3 X_Machine X_Types X_Data.
Open Scope Z_scope.

(** A checker for [separate]. *)
Definition marked (v : vm) (k : Z) : option ptr :=
  if k <? 0 then None else match nth_error (rev (ustack v)) (Z.to_nat k) with Some (Some e) => Some e | _ => None end.
Definition oeq (a b : option ptr) : bool := match a, b with Some a, Some b => (a =? b)%nat | _, _ => false end.
Definition separateb (v : vm) : bool :=
  forallb (fun e => negb (liveb v e) || match nth_error (objects v) e with
    | Some (OUpvalue (UpStack k)) => oeq (marked v k) (Some e)
    | Some (OUpvalue (UpObject (Some q))) => forallb (fun e' => negb (liveb v e') || match nth_error (objects v) e' with
        | Some (OUpvalue (UpObject (Some q'))) => negb (q =? q')%nat || (e =? e')%nat | _ => true end) (seq 0 (length (objects v)))
    | _ => true end) (seq 0 (length (objects v))) &&
  forallb (fun k => match nth_error (rev (ustack v)) k with
    | Some (Some e) => match nth_error (objects v) e with Some (OUpvalue (UpStack k')) => k' =? Z.of_nat k | _ => false end
    | _ => true end) (seq 0 (length (ustack v))).

Lemma marked_ok v k e : oeq (marked v k) (Some e) = true -> mark v k e.
Proof.
  unfold marked, oeq, mark. destruct (Z.ltb_spec k 0); [discriminate|]. destruct (nth_error _ _) as [[x|]|]; try discriminate.
  intros H'. apply Nat.eqb_eq in H'. subst. auto.
Qed.

Lemma separateb_ok v : separateb v = true -> separate v.
Proof.
  unfold separateb. rewrite andb_true_iff, !forallb_forall. intros [A B].
  assert (forall e, live v e -> In e (seq 0 (length (objects v))) /\ liveb v e = true) as L.
  { intros e Le. split; [apply in_seq; destruct Le; lia|]. apply liveb_ok. auto. }
  constructor.
  - intros e k Le E. destruct (L e Le) as [L1 L2]. specialize (A e L1). rewrite L2, E in A. apply marked_ok. auto.
  - intros e k [H E]. specialize (B (Z.to_nat k)). rewrite E in B.
    assert (Z.to_nat k < length (rev (ustack v)))%nat as Hl by (apply nth_error_Some; congruence). rewrite rev_length in Hl.
    specialize (B ltac:(apply in_seq; lia)). destruct (nth_error (objects v) e) as [o|]; [|discriminate]. destruct o; try discriminate.
    destruct u; try discriminate. f_equal. f_equal. f_equal. lia.
  - intros e e' q Le Le' E E'. destruct (L e Le) as [L1 L2]. destruct (L e' Le') as [L1' L2']. specialize (A e L1). rewrite L2, E in A.
    cbn [negb orb] in A. rewrite forallb_forall in A. specialize (A e' L1'). rewrite L2', E', Nat.eqb_refl in A. cbn in A. apply Nat.eqb_eq. auto.
Qed.

Lemma ex_rich_step : in_step ex_rich.
Proof. reflexivity. Qed.
Lemma ex_rich_separate : separate ex_rich.
Proof. apply separateb_ok. vm_compute. reflexivity. Qed.
Lemma ex_captures : captures ex_rich 0 (Some 8%nat).
Proof. exists 7%nat, 2%nat, 1, [UARef None 0], [Cell (Some 8%nat)], 1. repeat split; try reflexivity; lia. Qed.
Lemma ex_variable : variable (objects ex_rich) 8 8.
Proof. eapply variable_itself; [reflexivity|discriminate]. Qed.
Lemma ex_value : value_of ex_rich 8 (OList (Some 1%nat)).
Proof. apply (value_slot _ _ _ 0); [reflexivity|]. split; [lia|reflexivity]. Qed.

(** The running closure makes a closure that captures its own variable, the closure itself and the
    value below. *)
Definition ex_capture := IPushClosure false 1 1 [-1; 0; 1; 5].
Lemma ex_capture_run : current_bytecode ex_rich = Some 0%nat /\ (forall p id n rest, uacs ex_rich = UARef (Some (p, id)) n :: rest -> reach ex_rich p) /\
  exists v', exec no_host 0%nat ex_next ex_capture ex_rich = (Ok (Continue ex_next), v').
Proof.
  split; [reflexivity|]. split.
  - intros p id n rest E. injection E as <- _ _ _.
    eapply reach_step; [eapply reach_step; [apply (reach_in ex_rich (OComposite (Some 9%nat)))| |]| |].
    + right; left; reflexivity. + constructor. + reflexivity. + apply refers_function. + reflexivity. + constructor.
  - eexists. vm_compute. reflexivity.
Qed.
Lemma ex_share_run : exists v1 v2, exec no_host 0%nat ex_next (IPushClosure false 1 1 [2; 5]) ex_rich = (Ok (Continue ex_next), v1) /\ current_bytecode v1 = Some 0%nat /\
  exec no_host 0%nat ex_next (IPushClosure true 2 3 [6]) v1 = (Ok (Continue ex_next), v2).
Proof. eexists; eexists. split; [vm_compute; reflexivity|]. split; [reflexivity|]. vm_compute. reflexivity. Qed.

Lemma ex_release_run : exists v', exec no_host 0%nat ex_next (IReleaseUpvalues [5; 2]) ex_rich = (Ok (Continue ex_next), v') /\
  live v' 8 /\ (exists u, nth_error (objects v') 8 = Some (OUpvalue u)).
Proof. eexists. split; [vm_compute; reflexivity|]. split; [apply liveb_ok; reflexivity|eexists; reflexivity]. Qed.

(** Popping a captured variable that was not closed first: the closure then reads whatever is pushed
    in its place. *)
Lemma pop_shares : exists v1 v2 x y, typed ex_rich /\ separate ex_rich /\ captures ex_rich 0 (Some 8%nat) /\ value_of ex_rich 8 x /\
  exec no_host 0%nat ex_next (IPop 5) ex_rich = (Ok (Continue ex_next), v1) /\
  exec no_host 0%nat ex_next (IPushInteger 77) v1 = (Ok (Continue ex_next), v2) /\ value_of v2 8 y /\ y <> x.
Proof.
  exists (set_ustack (set_stack ex_rich []) []). eexists. exists (OList (Some 1%nat)), (OInteger 77). split; [apply ex_rich_sound|]. split; [exact ex_rich_separate|].
  split; [exact ex_captures|]. split; [exact ex_value|]. split; [vm_compute; reflexivity|]. split; [vm_compute; reflexivity|].
  split; [|discriminate]. apply (value_slot _ _ _ 0); [reflexivity|]. split; [lia|reflexivity].
Qed.

(** * Two byte codes *)

(** The first program stores a function in a global; the second calls it. *)
Definition ex_call_global : list Z := [28; 5; 40; 1; 0; 165].

(** A function that makes a closure. *)
Definition ex_maker : list Z := [22; 11; 0; 0; 0; 0; 0; 34; 1; 5; 158; 1; 165; 22; 0; 0; 0; 0; 0; 0; 162; 1].
Lemma closure_elsewhere : exists v1 v2, execute_with_ip no_host 100 ex_maker 0 (vm_init 20) = (Ok tt, v1) /\
  execute_with_ip no_host 100 ex_call_global 0 v1 = (UB, v2).
Proof.
  set (v := snd (execute_with_ip no_host 100 ex_maker 0 (vm_init 20))). exists v, (snd (execute_with_ip no_host 100 ex_call_global 0 v)).
  split; vm_compute; reflexivity.
Qed.

(** A function that removes itself from its global and its stack slot, and then makes two pairs. *)
Definition ex_forgetful : list Z := [22; 11; 0; 0; 0; 0; 0; 34; 1; 5; 158; 1; 165; 166; 34; 1; 5; 64; 1; 2; 91; 1; 1; 91; 1; 1; 162; 1].
Lemma code_collected :
  (exists v1 v2, execute_with_ip no_host 100 ex_forgetful 0 (vm_init 7) = (Ok tt, v1) /\ execute_with_ip no_host 100 ex_call_global 0 v1 = (Ok tt, v2)) /\
  (exists v1 v2, execute_with_ip no_host 100 ex_forgetful 0 (vm_init 6) = (Ok tt, v1) /\ execute_with_ip no_host 100 ex_call_global 0 v1 = (UB, v2)).
Proof.
  split.
  - set (v := snd (execute_with_ip no_host 100 ex_forgetful 0 (vm_init 7))). exists v, (snd (execute_with_ip no_host 100 ex_call_global 0 v)).
    split; vm_compute; reflexivity.
  - set (v := snd (execute_with_ip no_host 100 ex_forgetful 0 (vm_init 6))). exists v, (snd (execute_with_ip no_host 100 ex_call_global 0 v)).
    split; vm_compute; reflexivity.
Qed.
