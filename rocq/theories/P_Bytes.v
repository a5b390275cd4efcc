(** The assembler produces bytes. *)
From Coq Require Import ZArith List Bool Lia Arith ZifyBool ZifyNat.
From Verif Require Import M_Base M_Instr M_Asm S_Asm S_Types P_Asm P_Asm2.
Import ListNotations.
Open Scope Z_scope.

Definition textual (a : ainstr) : Prop :=
  match a with APushString s | APushSymbol _ s => Forall byte s | _ => True end.

Lemma be_byte n x : Forall byte (be n x).
Proof. induction n as [|n IH]; cbn [be]; constructor; auto. unfold byte. apply Z.mod_pos_bound. lia. Qed.
Lemma opcode_byte c w : byte (opcode c w).
Proof.
  unfold opcode, byte. assert (0 <= windex w <= 2) by (destruct w; cbn; lia).
  assert (0 <= opcode_base c <= 200) by (destruct c; cbn; try lia; match goal with |- context [match ?x with _ => _ end] => destruct x; lia end). lia.
Qed.
Lemma link_opcode a : opcode (link_class a) W8 + 2 < 256.
Proof. destruct a; try (cbn; lia). destruct variadic; cbn; lia. Qed.
Lemma flat_bytes {A} (f : A -> list Z) l : (forall a, In a l -> Forall byte (f a)) -> Forall byte (flat_map f l).
Proof. intros H. induction l as [|a l IH]; cbn; [constructor|]. apply Forall_app. split; [apply H; left; reflexivity|]. apply IH. intros b I. apply H. right. exact I. Qed.
Ltac bs := repeat first [apply be_byte | apply opcode_byte | apply Forall_nil | (apply Forall_app; split) | (apply Forall_cons) | (apply flat_bytes; intros) | assumption].
Lemma chunk_byte short strip a : textual a -> Forall byte (chunk short strip a).
Proof.
  intros H. unfold chunk. destruct (link_label a) eqn:E.
  - apply Forall_cons; [apply opcode_byte|]. apply Forall_app. split; [destruct short; repeat constructor; unfold byte; lia|].
    destruct a; cbn [link_rest]; bs.
  - destruct a; cbn [encode_plain textual] in *; unfold bew; try discriminate; bs.
    + destruct (n =? 0); apply opcode_byte.
    + destruct strip; bs.
    + destruct (n =? 0); bs.
Qed.

Lemma splice_byte L : forall out p, Forall byte out ->
  (forall x i b, In x L -> nth_error out i = Some b -> p + Z.of_nat i + 1 = lk_source (fst x) -> b + 2 < 256) ->
  Forall byte (splice p out L).
Proof.
  induction out as [|b out IH]; intros p F H; cbn [splice]; [constructor|]. inversion F as [|? ? B F']; subst.
  assert (Forall byte (splice (p + 1) out L)) as K.
  { apply IH; [exact F'|]. intros x i c I N E. apply (H x (S i) c I N). lia. }
  destruct (find _ L) as [[x l]|] eqn:E; [|constructor; assumption].
  apply find_some in E as [I E]. cbn [fst] in E. apply Z.eqb_eq in E.
  constructor; [|apply Forall_app; split; [apply be_byte|exact K]].
  specialize (H (x, l) O b I eq_refl ltac:(cbn [fst]; lia)). unfold byte in *. assert (0 <= windex (size_width (lk_size l)) <= 2) by (destruct (size_width _); cbn; lia). lia.
Qed.
Lemma patch_byte out l : Forall byte out -> Forall byte (patch out l).
Proof.
  intros F. unfold patch. apply Forall_app. split; [|apply Forall_app; split; [apply be_byte|]].
  - apply Forall_forall. intros x I. eapply Forall_forall; [exact F|]. rewrite <- (firstn_skipn (Z.to_nat (lk_source l)) out). apply in_or_app. auto.
  - apply Forall_forall. intros x I. eapply Forall_forall; [exact F|]. rewrite <- (firstn_skipn (Z.to_nat (lk_source l) + 4) out). apply in_or_app. auto.
Qed.

Lemma chunk_at short strip prog : forall k a, nth_error prog k = Some a -> forall j b, nth_error (chunk short strip a) j = Some b ->
  nth_error (flat_map (chunk short strip) prog) (Z.to_nat (pre short strip prog k) + j) = Some b.
Proof.
  induction prog as [|a r IH]; intros k c N j b J; [destruct k; discriminate|]. destruct k as [|k]; cbn [nth_error flat_map] in *.
  - injection N as ->. change (pre short strip (c :: r) 0) with 0. cbn [Z.to_nat Nat.add]. rewrite nth_error_app1; [exact J|]. apply nth_error_Some. congruence.
  - assert (pre short strip (a :: r) (S k) = zlength (chunk short strip a) + pre short strip r k) as ->.
    { unfold pre, chunks, start. cbn [map firstn concat]. unfold zlength. rewrite app_length. lia. }
    pose proof (pre_nonneg short strip r k) as Pn. unfold zlength. rewrite nth_error_app2 by lia.
    replace (Z.to_nat (Z.of_nat (length (chunk short strip a)) + pre short strip r k) + j - length (chunk short strip a))%nat
      with (Z.to_nat (pre short strip r k) + j)%nat by lia. eapply IH; eauto.
Qed.

Theorem assemble_bytes short strip N prog code : well_labelled N prog -> Forall textual prog ->
  assemble false short strip N prog = Ok code -> Forall byte code.
Proof.
  intros W X E. destruct (first_links short strip N prog W) as [L [[labels [Ea El]] [_ IN]]].
  assert (Forall byte (flat_map (chunk short strip) prog)) as B.
  { apply flat_bytes. intros a I. apply chunk_byte. eapply Forall_forall; eauto. }
  unfold assemble in E. rewrite Ea in E. cbn [bind] in E. rewrite El in E. destruct short.
  - destruct (shrink L) as [C| | |]; cbn [bind] in E; try discriminate. injection E as <-. apply splice_byte; [exact B|].
    intros [x y] i b I N1 Es. apply in_combine_l in I. apply IN in I as [k [a [l [Nk [U ->]]]]]. cbn [fst lk_source] in Es.
    assert (nth_error (chunk true strip a) 0 = Some (opcode (link_class a) W8)) as H.
    { unfold chunk. assert (link_label a = Some l) as -> by (destruct a; cbn in U |- *; congruence). reflexivity. }
    apply (chunk_at true strip prog k a Nk) in H. pose proof (pre_nonneg true strip prog k). rewrite Nat.add_0_r in H.
    replace (Z.to_nat (pre true strip prog k)) with i in H by lia. rewrite N1 in H. injection H as ->. apply link_opcode.
  - injection E as <-. clear - B. revert B. generalize (flat_map (chunk false strip) prog) as out. induction L as [|x L IH]; intros out B; cbn; [exact B|].
    apply IH, patch_byte, B.
Qed.
