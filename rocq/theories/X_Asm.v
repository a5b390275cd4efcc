(** Concrete programs for the assembler, and its known slips. *)
From Coq Require Import ZArith List Bool Lia ZifyBool ZifyNat.
Import ListNotations.
From Verif Require Import M_Base M_Heap M_Instr M_VM M_Asm S_Heap S_VM S_Types S_Asm P_Asm P_Asm2 P_Asm3 P_Asm4 P_Peep P_Types P_Safe X_Machine X_Types.
Open Scope Z_scope.

(** ** One instruction among others (C15) *)
Lemma instruction_round_trip strip a i before after :
  in_range a -> clean a -> uses a = None -> meaning strip (fun _ => 0) a = Some i ->
  decode (before ++ encode_plain strip a ++ after) (zlength before)
    = Ok (i, zlength before + zlength (encode_plain strip a)).
Proof.
  intros R C U M. eapply decode_plain with (post := after); eauto. split; [apply zlength_nonneg|].
  rewrite zlength_nat. now rewrite skipn_app, skipn_all, Nat.sub_diag.
Qed.

Lemma link_round_trip strip addr a l i w before after d :
  in_range a -> uses a = Some l -> meaning strip addr a = Some i ->
  d = addr l - (zlength before + 1 + Z.of_nat (wbytes w)) ->
  - 2 ^ (8 * Z.of_nat (wbytes w) - 1) <= d < 2 ^ (8 * Z.of_nat (wbytes w) - 1) ->
  let bytes := opcode (link_class a) w :: bew w d ++ link_rest a in
  decode (before ++ bytes ++ after) (zlength before) = Ok (i, zlength before + zlength bytes).
Proof.
  intros R U M E F bytes. change bytes with (encode_link a w d).
  eapply decode_link with (post := after); eauto; [|unfold fits_width; rewrite wlim_half; exact F|lia].
  split; [apply zlength_nonneg|].
  rewrite zlength_nat. now rewrite skipn_app, skipn_all, Nat.sub_diag.
Qed.

(** The code of a program that is laid out runs instruction by instruction. *)
Lemma laid_out_step host base strip prog code off addr v b id k a i :
  laid_out strip prog code off addr ->
  nth_error (objects v) b = Some (OBytecode id (Some code)) ->
  nth_error prog k = Some a -> meaning strip addr a = Some i ->
  step host base (PC (b, id) (off k)) v = exec host base (PC (b, id) (off (S k))) i v.
Proof.
  intros L N K M. unfold step, mbind, mget, mlift, code_bytes. cbn [pc_code pc_ip fst snd].
  rewrite N, Nat.eqb_refl, (lo_instr _ _ _ _ _ L k a i K M). reflexivity.
Qed.

(** Operands that do not survive. *)
Lemma slip_setVecElt :
  exists a, in_range a /\ uses a = None /\ meaning false (fun _ => 0) a = Some (ITern TSetVecElt 1 2 300) /\
    decode (encode_plain false a) 0 = Ok (ITern TSetVecElt 1 2 44, zlength (encode_plain false a)).
Proof. exists (ATern TSetVecElt 1 2 300). repeat split; cbn; unfold word; lia. Qed.
Lemma slip_vector :
  exists a, in_range a /\ uses a = None /\ meaning false (fun _ => 0) a = Some (IVector [300]) /\
    decode (encode_plain false a) 0 = Ok (IVector [44], zlength (encode_plain false a)).
Proof. exists (AVector [300]). repeat split; repeat constructor; cbn; unfold word; lia. Qed.
Lemma slip_setUpvalue :
  exists a, in_range a /\ uses a = None /\ meaning false (fun _ => 0) a = Some (ISetUpvalue 0 300) /\
    decode (encode_plain false a) 0 = Ok (ISetUpvalue 0 44, zlength (encode_plain false a)).
Proof. exists (ASetUpvalue 0 300). repeat split; cbn; unfold word, octet; lia. Qed.
Lemma slip_release :
  exists a, in_range a /\ uses a = None /\ meaning false (fun _ => 0) a = Some (IReleaseUpvalues [300]) /\
    decode (encode_plain false a) 0 = Ok (IReleaseUpvalues [], 2) /\ zlength (encode_plain false a) = 5.
Proof. exists (AReleaseUpvalues [300]). repeat split; repeat constructor; cbn; unfold word, octet; lia. Qed.
Lemma slip_equal :
  exists a after, in_range a /\ uses a = None /\ meaning false (fun _ => 0) a = Some (IBin BEqual 300 301) /\
    decode (encode_plain false a ++ after) 0 = Ok (IBin BEqual 7 8, 7) /\ zlength (encode_plain false a) = 5.
Proof.
  exists (ABin BEqual 300 301), [7; 8]. repeat split; cbn; unfold word; lia.
Qed.

(** ** Integers (C16) *)
Lemma to_int_range n : sword (to_int n).
Proof. unfold sword, to_int. pose proof (Z.mod_pos_bound (n + 2 ^ 31) (2 ^ 32)). lia. Qed.
Lemma to_int_id n : sword n -> to_int n = n.
Proof. unfold sword, to_int. intros H. rewrite Z.mod_small by lia. lia. Qed.
Lemma to_int_mod n : to_int n mod 2 ^ 32 = n mod 2 ^ 32.
Proof.
  unfold to_int. rewrite Zminus_mod_idemp_l. f_equal. lia.
Qed.

Lemma integer_read n before after :
  decode (before ++ encode_plain false (APushInteger n) ++ after) (zlength before)
    = Ok (IPushInteger (to_int n), zlength before + zlength (encode_plain false (APushInteger n))).
Proof.
  destruct (Z.ltb_spec (Z.abs n) 32768) as [S|S].
  - rewrite (instruction_round_trip false (APushInteger n) (IPushInteger n)); cbn; auto; [|unfold sword; lia].
    rewrite to_int_id by (unfold sword; lia). reflexivity.
  - assert (W : integer_width n = W32).
    { unfold integer_width. replace (Z.abs n <? 128) with false by lia. now replace (Z.abs n <? 32768) with false by lia. }
    cbn [encode_plain]. rewrite W.
    assert (R : rest_at (before ++ (opcode CPushInteger W32 :: bew W32 n) ++ after) (zlength before)
      (opcode CPushInteger W32 :: bew W32 n ++ after)).
    { split; [apply zlength_nonneg|]. rewrite zlength_nat. now rewrite skipn_app, skipn_all, Nat.sub_diag. }
    unfold decode. destruct (byte_at _ _ _ _ R) as [E1 R1]. rewrite E1. cbn [bind].
    rewrite classify_sized by reflexivity. destruct (operand_at _ _ _ _ _ R1) as [E2 R2]. rewrite E2. cbn [bind].
    change (wlim W32) with (2 ^ 32). rewrite <- (to_int_mod n).
    pose proof (to_int_range n). change (2 ^ 32) with (wlim W32).
    rewrite signed_fit by (unfold sword in *; cbn [wlim]; lia).
    do 2 f_equal. unfold zlength. cbn [length]. rewrite bew_length. cbn [wbytes]. lia.
Qed.

Lemma integer_round_trip n before after : sword n ->
  decode (before ++ encode_plain false (APushInteger n) ++ after) (zlength before)
    = Ok (IPushInteger n, zlength before + zlength (encode_plain false (APushInteger n))).
Proof. intros H. rewrite integer_read, to_int_id by exact H. reflexivity. Qed.

Lemma integer_truncated :
  decode (encode_plain false (APushInteger (2 ^ 31))) 0 = Ok (IPushInteger (- 2 ^ 31), 5).
Proof. reflexivity. Qed.

(** ** Push and pop (C17) *)
Lemma dropped_type :
  exists v v1 v2, block_runs no_host 0%nat (PC (0%nat, 1%nat) 0) false (fun _ => 0) [AMakeType; APop 1] v v1 /\
    block_runs no_host 0%nat (PC (0%nat, 1%nat) 0) false (fun _ => 0) (peephole [AMakeType; APop 1]) v v2 /\
    next_user_type v1 <> next_user_type v2.
Proof.
  exists ex_rich. do 2 eexists. split; [|split].
  - eapply block_instr; [reflexivity|reflexivity|]. eapply block_instr; [reflexivity|reflexivity|constructor].
  - change (peephole [AMakeType; APop 1]) with [AInternalNop; AInternalNop].
    eapply block_pseudo; [reflexivity|]. eapply block_pseudo; [reflexivity|]. constructor.
  - vm_compute. discriminate.
Qed.

Lemma pop_of_nothing : peephole [ANil; APop 0] = [AInternalNop; APop (-1)].
Proof. reflexivity. Qed.

(** ** A program that gets a wrong jump (C18) *)
Definition lost : list ainstr :=
  [AJump 0] ++ repeat ANil 20 ++ [AJump 1] ++ repeat ANil 105 ++ [ALabel 0] ++ repeat ANil 23
    ++ [ALabel 1; AHalt].

Fixpoint nodupb (l : list Z) : bool :=
  match l with [] => true | x :: l' => negb (existsb (Z.eqb x) l') && nodupb l' end.
Lemma nodupb_ok l : nodupb l = true -> NoDup l.
Proof.
  induction l as [|x l IH]; cbn; intros H; constructor; apply andb_true_iff in H; destruct H as [H1 H2]; auto.
  intros I. assert (existsb (Z.eqb x) l = true) as E; [|rewrite E in H1; discriminate].
  apply existsb_exists. exists x. split; [exact I|apply Z.eqb_refl].
Qed.
Definition labelledb (n : nat) (prog : list ainstr) : bool :=
  nodupb (defines prog) && forallb (fun l => (0 <=? l) && (l <? Z.of_nat n)) (defines prog)
  && forallb (fun a => match uses a with Some l => existsb (Z.eqb l) (defines prog) | None => true end) prog.
Lemma labelledb_ok n prog : labelledb n prog = true -> well_labelled n prog.
Proof.
  unfold labelledb. rewrite !andb_true_iff. intros [[H1 H2] H3]. constructor.
  - now apply nodupb_ok.
  - rewrite Forall_forall. rewrite forallb_forall in H2. intros l I. specialize (H2 l I). lia.
  - intros a l I U. rewrite forallb_forall in H3. specialize (H3 a I). rewrite U in H3.
    apply existsb_exists in H3. destruct H3 as [x [I' E]]. now replace l with x by lia.
Qed.

Lemma lost_ok : well_labelled 2 lost /\ Forall in_range lost /\ Forall clean lost.
Proof.
  split; [apply labelledb_ok; reflexivity|]. split; repeat constructor.
Qed.

Lemma jump_lost : exists code,
  assemble true true false 2 lost = Ok code /\
  (forall off addr, ~ laid_out false lost code off addr) /\
  decode code 23 = Ok (IJump (-103), 25) /\ zlength code = 154.
Proof.
  destruct (assemble true true false 2 lost) as [code| | |] eqn:E; try (vm_compute in E; discriminate).
  exists code. split; [reflexivity|].
  assert (D : decode code 0 = Ok (IJump 130, 3) /\ decode code 23 = Ok (IJump (-103), 25) /\ zlength code = 154 /\
    forall k, (k < 20)%nat -> decode code (3 + Z.of_nat k) = Ok (INil, 4 + Z.of_nat k)).
  { vm_compute in E. injection E as <-. split; [reflexivity|]. split; [reflexivity|]. split; [reflexivity|].
    intros k Hk. do 20 (destruct k as [|k]; [reflexivity|]). lia. }
  destruct D as [D1 [D2 [D3 D4]]]. split; [|auto].
  intros off addr L.
  assert (O1 : off 1%nat = 3).
  { pose proof (lo_instr _ _ _ _ _ L 0 (AJump 0) _ eq_refl eq_refl) as H. rewrite (lo_start _ _ _ _ _ L), D1 in H.
    now injection H. }
  assert (ON : forall k, (k <= 20)%nat -> off (S k) = 3 + Z.of_nat k).
  { induction k as [|k IH]; intros Hk; [rewrite O1; reflexivity|].
    assert (N : nth_error lost (S k) = Some ANil) by (do 20 (destruct k as [|k]; [reflexivity|]); lia).
    pose proof (lo_instr _ _ _ _ _ L (S k) ANil _ N eq_refl) as H. rewrite IH, D4 in H by lia.
    assert (Q : forall (i j : instr) (x y : Z), Ok (i, x) = Ok (j, y) -> x = y) by (intros; congruence).
    apply Q in H. lia. }
  pose proof (lo_instr _ _ _ _ _ L 21 (AJump 1) _ eq_refl eq_refl) as H. rewrite (ON 20%nat) in H by lia.
  replace (3 + Z.of_nat 20) with 23 in H by lia. rewrite D2 in H. injection H as H _.
  pose proof (lo_label _ _ _ _ _ L 151 1 eq_refl) as A.
  pose proof (lo_pseudo _ _ _ _ _ L 151 (ALabel 1) eq_refl eq_refl) as B.
  pose proof (lo_instr _ _ _ _ _ L 152 AHalt _ eq_refl eq_refl) as F.
  rewrite B, <- A, <- H in F. discriminate.
Qed.

(** ** A small program *)
Definition ex_asm : list ainstr :=
  [APushInteger 1000; ABrnz 0 1; APushClosure true 1 2 [1; -1]; ALabel 0; APushString [100; 117; 99; 107];
   AJump 2; ALabel 1; AReturn 0; ALabel 2; AHalt].
Lemma ex_asm_ok : well_labelled 3 ex_asm /\ Forall in_range ex_asm /\ Forall clean ex_asm /\ least_size false ex_asm <= 127.
Proof.
  split; [apply labelledb_ok; reflexivity|].
  split; [|split; [repeat constructor|vm_compute; discriminate]].
  unfold ex_asm. repeat constructor; cbn; unfold sword, octet, word, zlength; cbn; lia.
Qed.
Lemma ex_block_runs : exists v v',
  Forall (push_or_pop true) [APushIndex 1; ANil; APushInteger 5; APop 2; APop 1; APushSymbol 3 []; APop 1] /\
  block_runs no_host 0%nat (PC (0%nat, 1%nat) 0) true (fun _ => 0)
    [APushIndex 1; ANil; APushInteger 5; APop 2; APop 1; APushSymbol 3 []; APop 1] v v'.
Proof.
  exists ex_rich. eexists. split; [repeat constructor; cbn; lia|].
  repeat (eapply block_instr; [reflexivity|vm_compute; reflexivity|]). constructor.
Qed.
Lemma ex_text_runs : exists v', valid ex_rich /\
  block_runs no_host 0%nat (PC (0%nat, 1%nat) 0) false (fun _ => 0) [APushString [104; 105]; APop 2] ex_rich v'.
Proof.
  eexists. split; [apply typed_is_valid, ex_rich_sound|].
  repeat (eapply block_instr; [reflexivity|vm_compute; reflexivity|]). constructor.
Qed.
