(** Decoding what the assembler encodes (C15, C16). *)
From Coq Require Import ZArith List Bool Lia ZifyBool ZifyNat.
Import ListNotations.
From Verif Require Import M_Base M_Instr M_Asm S_Asm.
Open Scope Z_scope.

(** The bytes of [code] from [ip] on. *)
Definition rest_at (code : list Z) (ip : Z) (l : list Z) : Prop :=
  0 <= ip /\ skipn (Z.to_nat ip) code = l.

Lemma byte_at code ip b l :
  rest_at code ip (b :: l) -> byte code ip = Ok (b, ip + 1) /\ rest_at code (ip + 1) l.
Proof.
  intros [H E].
  assert (Lt : (Z.to_nat ip < length code)%nat).
  { destruct (Nat.lt_ge_cases (Z.to_nat ip) (length code)); auto.
    rewrite skipn_all2 in E by lia. discriminate. }
  assert (N : nth_error code (Z.to_nat ip) = Some b).
  { rewrite <- (firstn_skipn (Z.to_nat ip) code), nth_error_app2, E;
      rewrite firstn_length_le by lia; [|lia].
    now rewrite Nat.sub_diag. }
  split.
  - unfold byte, array_get.
    replace (ip <? 0) with false by lia. rewrite N. reflexivity.
  - split; [lia|].
    replace (Z.to_nat (ip + 1)) with (S (Z.to_nat ip)) by lia.
    clear Lt N H. revert E. generalize (Z.to_nat ip). intros n. revert code.
    induction n; intros [|x code]; cbn; intros E; try discriminate.
    + now injection E as -> ->.
    + now apply IHn.
Qed.

Lemma zlength_nat {A} (l : list A) : Z.to_nat (zlength l) = length l.
Proof. apply Nat2Z.id. Qed.

Lemma be_length n x : length (be n x) = n.
Proof. induction n; cbn; auto. Qed.

Lemma pow256 n : 256 ^ Z.of_nat (S n) = 256 * 256 ^ Z.of_nat n.
Proof. rewrite Nat2Z.inj_succ, Z.pow_succ_r by lia. reflexivity. Qed.

Lemma read_be_at code : forall n ip acc x l,
  rest_at code ip (be n x ++ l) ->
  read_be code ip n acc = Ok (acc * 256 ^ Z.of_nat n + x mod 256 ^ Z.of_nat n, ip + Z.of_nat n)
  /\ rest_at code (ip + Z.of_nat n) l.
Proof.
  induction n; intros ip acc x l H; cbn [read_be be] in *.
  - rewrite Z.pow_0_r, Z.mod_1_r, !Z.add_0_r, Z.mul_1_r. auto.
  - cbn [app] in H. destruct (byte_at _ _ _ _ H) as [-> H']. cbn [bind].
    destruct (IHn (ip + 1) ((x / 256 ^ Z.of_nat n) mod 256 + acc * 256) x l H') as [-> H''].
    rewrite pow256. split.
    + f_equal. f_equal; [|lia].
      assert (P : 0 < 256 ^ Z.of_nat n) by (apply Z.pow_pos_nonneg; lia).
      replace (256 * 256 ^ Z.of_nat n) with (256 ^ Z.of_nat n * 256) by lia.
      rewrite Z.rem_mul_r by lia. nia.
    + replace (ip + Z.of_nat (S n)) with (ip + 1 + Z.of_nat n) by lia. assumption.
Qed.

Definition wlim (w : width) : Z := match w with W8 => 256 | W16 => 65536 | W32 => 2 ^ 32 end.

Lemma wlim_pow w : 256 ^ Z.of_nat (wbytes w) = wlim w.
Proof. destruct w; reflexivity. Qed.

Lemma operand_at code w ip x l :
  rest_at code ip (bew w x ++ l) ->
  operand code w ip = Ok (x mod wlim w, ip + Z.of_nat (wbytes w))
  /\ rest_at code (ip + Z.of_nat (wbytes w)) l.
Proof.
  intros H. destruct (read_be_at code _ ip 0 x l H) as [E H']. unfold operand.
  rewrite E, wlim_pow. split; auto.
Qed.

Lemma be1_at code ip x l :
  rest_at code ip (be 1 x ++ l) -> byte code ip = Ok (x mod 256, ip + 1) /\ rest_at code (ip + 1) l.
Proof.
  cbn [be app]. change (256 ^ Z.of_nat 0) with 1. rewrite Z.div_1_r. apply byte_at.
Qed.

Lemma operands_at code w : forall xs ip l,
  rest_at code ip (flat_map (bew w) xs ++ l) ->
  operands code w ip (length xs)
  = Ok (map (fun x => x mod wlim w) xs, ip + Z.of_nat (wbytes w * length xs))
  /\ rest_at code (ip + Z.of_nat (wbytes w * length xs)) l.
Proof.
  induction xs as [|x xs IH]; intros ip l H; cbn [flat_map length operands app map] in *.
  - rewrite Nat.mul_0_r. cbn [Z.of_nat]. rewrite Z.add_0_r. auto.
  - rewrite <- app_assoc in H.
    destruct (operand_at _ _ _ _ _ H) as [-> H1]. cbn [bind].
    destruct (IH _ _ H1) as [-> H9]. cbn [bind]. 
    replace (ip + Z.of_nat (wbytes w * S (length xs)))
      with (ip + Z.of_nat (wbytes w) + Z.of_nat (wbytes w * length xs)) by lia.
    auto.
Qed.

Lemma read_bytes_at code : forall s ip l,
  rest_at code ip (s ++ l) ->
  read_bytes code ip (length s) = Ok (s, ip + zlength s) /\ rest_at code (ip + zlength s) l.
Proof.
  induction s as [|b s IH]; intros ip l H; cbn [length read_bytes app] in *.
  - unfold zlength. cbn [length Z.of_nat]. rewrite Z.add_0_r. auto.
  - destruct (byte_at _ _ _ _ H) as [-> H1]. cbn [bind].
    destruct (IH _ _ H1) as [-> H9]. cbn [bind].
    replace (ip + zlength (b :: s)) with (ip + 1 + zlength s)
      by (unfold zlength; cbn [length]; lia).
    auto.
Qed.

(** Opcodes. *)
Definition sized (c : opclass) : bool :=
  match c with
  | CNop | CPushBooleanFalse | CPushBooleanTrue | CPushDoubleFloat | CMakeType | CReturn0 | CHalt
  | CNil => false
  | _ => true
  end.

Lemma classify_sized c w : sized c = true -> classify (opcode c w) = Some (c, w).
Proof.
  destruct c as [| | | | | | | | | | | | | | | | | | | | | | | | | | | | | | | |u|b|t];
    try discriminate; intros _; try destruct u; try destruct b; try destruct t;
    destruct w; reflexivity.
Qed.

Lemma classify_only c : sized c = false -> classify (opcode c W8) = Some (c, W8).
Proof. destruct c; try discriminate; reflexivity. Qed.

Lemma opcode_widen c w : opcode c W8 + windex w = opcode c w.
Proof. unfold opcode. destruct w; cbn; lia. Qed.

(** Sizes. *)
Lemma width_one x : word x -> 0 <= x < wlim (width_of [x]).
Proof.
  unfold word, width_of. cbn [forallb]. rewrite !andb_true_r. intros H.
  rewrite !Z.mod_small by lia.
  destruct (x <? 256) eqn:A; [cbn; lia|]. destruct (x <? 65536) eqn:B; cbn [wlim]; lia.
Qed.

Lemma width_two x y : word x -> word y ->
  wlim (width_of [x; y]) = room (Z.max x y).
Proof.
  unfold word, width_of, room. cbn [forallb]. rewrite !andb_true_r. intros H H'.
  rewrite !Z.mod_small by lia.
  destruct (x <? 256) eqn:A, (y <? 256) eqn:B; cbn [andb];
    destruct (x <? 65536) eqn:C, (y <? 65536) eqn:D; cbn [andb];
    destruct (Z.max x y <? 256) eqn:E, (Z.max x y <? 65536) eqn:F; cbn [wlim]; lia.
Qed.

Lemma width_three x y z : word x -> word y -> word z ->
  wlim (width_of [x; y; z]) = room (Z.max (Z.max x y) z).
Proof.
  unfold word, width_of, room. cbn [forallb]. rewrite !andb_true_r. intros H H' H''.
  rewrite !Z.mod_small by lia.
  destruct (x <? 256) eqn:A, (y <? 256) eqn:B, (z <? 256) eqn:G; cbn [andb];
    destruct (x <? 65536) eqn:C, (y <? 65536) eqn:D, (z <? 65536) eqn:I; cbn [andb];
    destruct (Z.max (Z.max x y) z <? 256) eqn:E, (Z.max (Z.max x y) z <? 65536) eqn:F;
    cbn [wlim]; lia.
Qed.

Lemma room_le x y : word y -> x <= y -> x < room y.
Proof. unfold word, room. intros H L. destruct (y <? 256) eqn:A; [lia|]. destruct (y <? 65536) eqn:B; lia. Qed.

Lemma width_room x : word x -> wlim (width_of [x]) = room x.
Proof.
  unfold word, width_of, room. cbn [forallb]. rewrite !andb_true_r. intros H.
  rewrite !Z.mod_small by lia.
  destruct (x <? 256); [reflexivity|]. destruct (x <? 65536); reflexivity.
Qed.

Lemma signed_fit w x : - (wlim w / 2) <= x < wlim w / 2 -> signed w (x mod wlim w) = x.
Proof.
  intros H. unfold signed. replace (2 ^ (8 * Z.of_nat (wbytes w))) with (wlim w) by (destruct w; reflexivity).
  assert (P : 0 < wlim w) by (destruct w; cbn; lia).
  assert (Q : wlim w / 2 * 2 = wlim w) by (destruct w; reflexivity).
  destruct (Z.ltb_spec x 0).
  - assert (E : x mod wlim w = x + wlim w).
    { symmetry. apply Z.mod_unique with (q := -1); lia. }
    rewrite E. replace (wlim w / 2 <=? x + wlim w) with true by lia. lia.
  - rewrite Z.mod_small by lia. replace (wlim w / 2 <=? x) with false by lia. reflexivity.
Qed.

Lemma integer_fit n : sword n -> - (wlim (integer_width n) / 2) <= n < wlim (integer_width n) / 2.
Proof.
  unfold sword, integer_width. intros H.
  destruct (Z.abs n <? 128) eqn:A; [cbn; lia|].
  destruct (Z.abs n <? 32768) eqn:B; cbn; lia.
Qed.

Lemma symbol_fit id n : word id -> word n ->
  0 <= id < wlim (symbol_width id n) /\ 0 <= n < wlim (symbol_width id n).
Proof.
  unfold word, symbol_width. intros H H'. cbv zeta.
  destruct (Z.max (Z.abs id) (Z.abs n) <? 256) eqn:A; [cbn; lia|].
  destruct (Z.max (Z.abs id) (Z.abs n) <? 65536) eqn:B; cbn [wlim]; lia.
Qed.

Lemma signed_width_fit x : word x -> 0 <= x < wlim (signed_width x).
Proof.
  unfold word, signed_width. intros H. destruct (x <? 256) eqn:A; [cbn; lia|].
  destruct (x <? 65536) eqn:B; cbn [wlim]; lia.
Qed.

Lemma small_mods w xs : Forall (fun x => 0 <= x < wlim w) xs -> map (fun x => x mod wlim w) xs = xs.
Proof.
  induction 1 as [|x xs H _ IH]; cbn; [reflexivity|]. now rewrite IH, Z.mod_small.
Qed.

Lemma signed_mods xs : Forall sword xs -> map (signed W32) (map (fun x => x mod wlim W32) xs) = xs.
Proof.
  induction 1 as [|x xs H _ IH]; cbn [map]; [reflexivity|].
  rewrite IH, signed_fit; [reflexivity|]. unfold sword in H. cbn. lia.
Qed.

Lemma bew_length w x : length (bew w x) = wbytes w.
Proof. apply be_length. Qed.

Lemma flat_bew_length w xs : length (flat_map (bew w) xs) = (wbytes w * length xs)%nat.
Proof. induction xs; cbn; [lia|]. rewrite app_length, bew_length, IHxs. lia. Qed.

Ltac lens := unfold zlength in *; cbn [wbytes] in *;
  repeat (rewrite app_length || cbn [length] || rewrite bew_length || rewrite be_length
          || rewrite flat_bew_length); cbn [wbytes].

(** Reading one instruction. *)
Lemma decode_plain strip addr a i code ip post :
  in_range a -> clean a -> uses a = None -> meaning strip addr a = Some i ->
  rest_at code ip (encode_plain strip a ++ post) ->
  decode code ip = Ok (i, ip + zlength (encode_plain strip a)).
Proof.
  intros R C U M H.
  Ltac opc H := cbn [app] in H;
    let E := fresh "E" in
    destruct (byte_at _ _ _ _ H) as [E Hc]; unfold decode; rewrite E; cbn [bind];
    first [rewrite classify_sized by reflexivity | rewrite classify_only by reflexivity].
  Ltac op1 H := let E := fresh "E" in let He := fresh "Q" in
    try rewrite <- app_assoc in H;
    first [destruct (operand_at _ _ _ _ _ H) as [E He] | destruct (be1_at _ _ _ _ H) as [E He]];
    rewrite E; cbn [bind]; clear H E; rename He into H.
  Ltac fin :=
    match goal with |- Ok (?x, ?y) = Ok (_, ?z) =>
      replace z with y by (lens; lia); try rewrite !Z.mod_small by lia; try reflexivity
    end; repeat f_equal; auto; try lia.
  destruct a; cbn in U; try discriminate; cbn [encode_plain meaning in_range clean] in *;
    injection M as <-.
  - opc H. fin.
  - opc H. op1 Hc. pose proof (width_one _ R). rewrite Z.mod_small by lia.
    rewrite zlength_nat.
    destruct (read_bytes_at _ _ _ _ Hc) as [-> Hd]. cbn [bind]. fin.
  - destruct (n =? 0); opc H; fin.
  - opc H. op1 Hc. rewrite signed_fit by now apply integer_fit. fin.
  - opc H. destruct (read_be_at _ _ _ 0 _ _ Hc) as [E9 Hd]. rewrite E9. cbn [bind].
    f_equal. f_equal; [|lens; lia]. f_equal. rewrite Z.mod_small; [lia|].
    change (256 ^ Z.of_nat 8) with (2 ^ 64). lia.
  - opc H. op1 Hc. pose proof (width_one _ R). fin.
  - destruct R as [R1 R2]. destruct (symbol_fit _ _ R1 R2) as [F1 F2].
    destruct strip.
    + opc H. op1 Hc. fin.
    + opc H. op1 Hc. op1 Hc. rewrite !Z.mod_small by lia.
      rewrite zlength_nat.
      destruct (read_bytes_at _ _ _ _ Hc) as [-> Hd]. cbn [bind]. fin.
  - destruct R as [R1 R2]. destruct (symbol_fit _ _ R1 R2) as [F1 F2]. opc H. op1 Hc. fin.
  - opc H. op1 Hc. pose proof (signed_width_fit _ R). fin.
  - opc H. op1 Hc. pose proof (width_one _ R). fin.
  - destruct R as [R1 R2]. unfold octet, word in *.
    assert (W : signed_width u = W8) by (unfold signed_width; replace (u <? 256) with true by lia; auto).
    rewrite W in *. opc H. rewrite <- app_assoc in Hc.
    destruct (be1_at _ _ _ _ Hc) as [-> Hd]. cbn [bind].
    op1 Hd. rewrite !Z.mod_small by (cbn [wlim]; lia). fin.
  - destruct R as [R1 R2]. pose proof (width_two _ _ R1 R2) as W.
    assert (B : word (Z.max i0 key)) by (unfold word in *; lia).
    pose proof (room_le i0 _ B ltac:(lia)). pose proof (room_le key _ B ltac:(lia)).
    unfold word in R1, R2. opc H. op1 Hc. op1 Hc. rewrite !Z.mod_small by lia. fin.
  - destruct R as [R1 R2]. unfold octet, word in *.
    assert (W : release_width is = W8).
    { unfold release_width. destruct (rev is) as [|x r] eqn:E; [reflexivity|].
      assert (I : In x is) by (apply in_rev; rewrite E; now left).
      rewrite Forall_forall in R2, C. specialize (R2 _ I). specialize (C _ I). cbn beta in C, R2.
      rewrite Z.mod_small by lia. now replace (x <? 256) with true by lia. }
    rewrite W in *. opc H. rewrite <- app_assoc in Hc.
    destruct (be1_at _ _ _ _ Hc) as [-> He]. cbn [bind].
    rewrite Z.mod_small by lia. rewrite zlength_nat.
    destruct (operands_at _ _ _ _ _ He) as [-> Hf]. cbn [bind].
    rewrite small_mods; [fin|].
    rewrite Forall_forall in *. intros x I. specialize (R2 _ I). specialize (C _ I). cbn in *. lia.
  - destruct R as [R1 R2]. pose proof (width_one _ R1). unfold octet in R2.
    opc H. op1 Hc. op1 Hc. rewrite !Z.mod_small by lia. fin.
  - destruct R as [R1 R2]. pose proof (width_one _ R1). unfold octet in R2.
    opc H. op1 Hc. op1 Hc. rewrite !Z.mod_small by lia. fin.
  - opc H. op1 Hc. pose proof (width_one _ R). fin.
  - destruct R as [R1 R2]. pose proof (width_two _ _ R1 R2) as W.
    assert (B : word (Z.max i0 j)) by (unfold word in *; lia).
    pose proof (room_le i0 _ B ltac:(lia)). pose proof (room_le j _ B ltac:(lia)).
    unfold word in R1, R2. opc H. op1 Hc. op1 Hc. rewrite !Z.mod_small by lia. fin.
  - opc H. op1 Hc. pose proof (width_one _ R). fin.
  - destruct R as [R1 R2]. pose proof (width_two _ _ R1 R2) as W.
    assert (B : word (Z.max i0 j)) by (unfold word in *; lia).
    pose proof (room_le i0 _ B ltac:(lia)). pose proof (room_le j _ B ltac:(lia)).
    assert (Q : match b, width_of [i0; j] with BEqual, W16 => False | _, _ => True end).
    { destruct b; auto. destruct (width_of [i0; j]) eqn:E; auto.
      cbn [wlim] in W. unfold room in W.
      destruct (Z.max i0 j <? 256) eqn:?, (Z.max i0 j <? 65536) eqn:?; lia. }
    unfold word in R1, R2. opc H. op1 Hc. op1 Hc. rewrite !Z.mod_small by lia.
    destruct b; try (fin; fail). destruct (width_of [i0; j]); try contradiction; fin.
  - destruct R as [R1 [R2 R3]].
    assert (B : word (Z.max i0 j)) by (unfold word in *; lia).
    assert (L : exists w, encode_plain strip (ATern t i0 j k)
                          = opcode (CTern t) w :: bew w i0 ++ bew w j ++ bew w k
                /\ 0 <= i0 < wlim w /\ 0 <= j < wlim w /\ 0 <= k < wlim w).
    { unfold word in R1, R2, R3. destruct t; cbn [encode_plain].
      - eexists. split; [reflexivity|]. rewrite width_two by auto.
        pose proof (room_le i0 _ B ltac:(lia)). pose proof (room_le j _ B ltac:(lia)). lia.
      - eexists. split; [reflexivity|]. rewrite width_three by auto.
        assert (B' : word (Z.max (Z.max i0 j) k)) by (unfold word in *; lia).
        pose proof (room_le i0 _ B' ltac:(lia)). pose proof (room_le j _ B' ltac:(lia)).
        pose proof (room_le k _ B' ltac:(lia)). lia.
      - eexists. split; [reflexivity|]. rewrite width_two by auto.
        pose proof (room_le i0 _ B ltac:(lia)). pose proof (room_le j _ B ltac:(lia)). lia. }
    destruct L as [w [L [L1 [L2 L3]]]]. cbn [encode_plain] in L. rewrite L in *.
    opc H. op1 Hc. op1 Hc. op1 Hc. rewrite !Z.mod_small by lia. fin.
  - destruct R as [R1 R2]. pose proof (width_one _ R1). pose proof (width_room _ R1) as W.
    opc H. op1 Hc. rewrite Z.mod_small by lia. rewrite zlength_nat.
    destruct (operands_at _ _ _ _ _ Hc) as [-> Hf]. cbn [bind].
    rewrite small_mods; [fin|]. rewrite W.
    rewrite Forall_forall in *. intros x I. specialize (R2 _ I). specialize (C _ I).
    unfold word in R2. cbn beta in C. lia.
  - opc H. fin.
  - opc H. op1 Hc. pose proof (width_one _ R). fin.
  - destruct (n =? 0) eqn:Z0; opc H; [fin|]. op1 Hc. pose proof (width_one _ R). fin.
  - opc H. fin.
  - opc H. fin.
Qed.

(** A jump-like instruction with an address of size [w]. *)
Definition encode_link (a : ainstr) (w : width) (d : Z) : list Z :=
  opcode (link_class a) w :: bew w d ++ link_rest a.

Definition fits_width (w : width) (d : Z) : Prop := - (wlim w / 2) <= d < wlim w / 2.

Lemma decode_link strip addr a l i code ip w d post :
  in_range a -> uses a = Some l -> meaning strip addr a = Some i ->
  rest_at code ip (encode_link a w d ++ post) -> fits_width w d ->
  addr l = ip + 1 + Z.of_nat (wbytes w) + d ->
  decode code ip = Ok (i, ip + zlength (encode_link a w d)).
Proof.
  intros R U M H F A. unfold encode_link in *.
  destruct a; cbn in U; try discriminate; injection U as <-;
    cbn [meaning in_range link_class link_rest] in *; injection M as <-.
  - destruct R as [R1 [R2 R3]]. unfold octet, word in *.
    assert (K : sized (if variadic then CPushVaClosure else CPushClosure) = true)
      by (destruct variadic; reflexivity).
    cbn [app] in H. destruct (byte_at _ _ _ _ H) as [E Hc]. unfold decode. rewrite E. cbn [bind].
    rewrite classify_sized by exact K.
    assert (G : (' (a, ip1) <- operand code w (ip + 1) ;;
      ' (arity0, ip2) <- byte code ip1 ;;
      ' (n, ip3) <- operand code W32 ip2 ;;
      ' (us, ip4) <- operands code W32 ip3 (Z.to_nat n) ;;
      Ok (IPushClosure variadic (ip1 + signed w a) arity0 (map (signed W32) us), ip4))
      = Ok (IPushClosure variadic (addr label) arity captures,
            ip + zlength (opcode (if variadic then CPushVaClosure else CPushClosure) w
               :: bew w d ++ be 1 arity ++ be 4 (zlength captures) ++ flat_map (be 4) captures))).
    { op1 Hc. rewrite signed_fit by exact F.
      rewrite <- app_assoc in Hc. op1 Hc. rewrite Z.mod_small by lia.
      change (be 4) with (bew W32) in *.
      op1 Hc. rewrite Z.mod_small by (cbn [wlim]; lia). rewrite zlength_nat.
      destruct (operands_at _ _ _ _ _ Hc) as [-> Hf]. cbn [bind].
      rewrite signed_mods by exact R3.
      f_equal. f_equal; [|lens; change (wbytes W32) with 4%nat; lia]. rewrite A. reflexivity. }
    destruct variadic; exact G.
  - opc H. op1 Hc. op1 Hc. rewrite signed_fit by exact F. fin.
  - opc H. op1 Hc. rewrite signed_fit by exact F.
    f_equal. f_equal; [|lens; lia]. f_equal. lia.
  - opc H. op1 Hc. op1 Hc. rewrite signed_fit by exact F. unfold octet in R. fin.
Qed.

Lemma encode_plain_nonempty strip addr a i :
  meaning strip addr a = Some i -> uses a = None -> encode_plain strip a <> [].
Proof.
  destruct a; cbn; try discriminate; try destruct strip; try destruct (n =? 0);
    try discriminate.
Qed.

Lemma meaning_none strip addr a : meaning strip addr a = None ->
  a = AInternalNop \/ exists l, a = ALabel l.
Proof. destruct a; try discriminate; eauto. Qed.
