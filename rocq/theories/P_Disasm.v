(** The disassembler shows the instructions of the code (C66). *)
From Coq Require Import String Ascii ZArith List Bool Lia ZifyBool.
From Verif Require Import M_Base M_String M_Instr M_Asm M_Disasm S_Asm S_Disasm.
Import ListNotations.
Open Scope Z_scope.
Open Scope list_scope.

Lemma get_inv {A} (l : list A) i x : array_get l i = Ok x -> 0 <= i /\ nth_error l (Z.to_nat i) = Some x.
Proof. unfold array_get. destruct (i <? 0) eqn:E; [discriminate|]. destruct (nth_error l (Z.to_nat i)); [|discriminate]. intros H. injection H as ->. split; [lia|reflexivity]. Qed.
Lemma byte_inv code ip b ip' : byte code ip = Ok (b, ip') -> array_get code ip = Ok b /\ ip' = ip + 1.
Proof. unfold byte. destruct (array_get code ip); try discriminate. cbn. intros H. injection H as -> <-. auto. Qed.
Lemma byte_octet code ip b : Forall octet code -> array_get code ip = Ok b -> octet b.
Proof. intros F H. apply get_inv in H. destruct H as [_ H]. rewrite Forall_forall in F. apply F. eapply nth_error_In, H. Qed.

Lemma nybble_digit x : nybble x = digit (x mod 16).
Proof.
  unfold nybble. assert (0 <= x mod 16 < 16) as H by (apply Z.mod_pos_bound; lia). cbv zeta.
  remember (x mod 16) as d. assert (d = 0 \/ d = 1 \/ d = 2 \/ d = 3 \/ d = 4 \/ d = 5 \/ d = 6 \/ d = 7 \/ d = 8 \/ d = 9 \/ d = 10 \/ d = 11 \/ d = 12 \/ d = 13 \/ d = 14 \/ d = 15) as C by lia.
  repeat (destruct C as [-> | C]; [reflexivity|]). rewrite C. reflexivity.
Qed.
Lemma hex_byte_digits b : octet b -> hex_byte b = [digit (b / 16 mod 16); digit (b mod 16)].
Proof. intros H. unfold hex_byte. rewrite !nybble_digit. reflexivity. Qed.

(** Only the low bytes matter. *)
Lemma hex_low n x y : x mod 256 ^ Z.of_nat n = y mod 256 ^ Z.of_nat n -> hex n x = hex n y.
Proof.
  induction n as [|n IH]; intros H; [reflexivity|]. cbn [hex].
  assert (P : 256 ^ Z.of_nat (S n) = 256 * 256 ^ Z.of_nat n) by (rewrite Nat2Z.inj_succ, Z.pow_succ_r by lia; reflexivity).
  set (m := 256 ^ Z.of_nat n) in *. assert (0 < m) as M by (apply Z.pow_pos_nonneg; lia). rewrite P in H.
  assert (D : exists k, x = y + 256 * m * k).
  { exists (x / (256 * m) - y / (256 * m)). pose proof (Z.div_mod x (256 * m) ltac:(lia)). pose proof (Z.div_mod y (256 * m) ltac:(lia)). nia. }
  destruct D as [k ->].
  assert (E : (y + 256 * m * k) / m = y / m + k * 256) by (replace (y + 256 * m * k) with (y + k * 256 * m) by ring; apply Z.div_add; lia).
  rewrite E. f_equal; [f_equal|f_equal; [f_equal|]].
  - replace (y / m + k * 256) with (y / m + k * 16 * 16) by ring. rewrite Z.div_add by lia. apply Z.mod_add. lia.
  - replace (y / m + k * 256) with (y / m + k * 16 * 16) by ring. apply Z.mod_add. lia.
  - apply IH. replace (y + 256 * m * k) with (y + 256 * k * m) by ring. apply Z.mod_add. lia.
Qed.

Lemma show_number_read code n : forall i acc x j, Forall octet code -> 0 <= acc -> read_be code (i + 1) n acc = Ok (x, j) ->
  show_number n code i acc = Ok (x, j - 1, hex n x) /\ exists low, x = acc * 256 ^ Z.of_nat n + low /\ 0 <= low < 256 ^ Z.of_nat n.
Proof.
  induction n as [|n IH]; intros i acc x j F A R; cbn [read_be show_number hex] in *.
  - injection R as -> <-. split; [repeat f_equal; lia|]. exists 0. change (256 ^ Z.of_nat 0) with 1. lia.
  - unfold bind in R at 1. destruct (byte code (i + 1)) as [[b ip']|?| |] eqn:B; try discriminate.
    apply byte_inv in B. destruct B as [B ->]. rewrite B. cbn [bind]. pose proof (byte_octet _ _ _ F B) as O.
    replace (b + acc * 256) with (acc * 256 + b) in R by ring. unfold octet in O.
    destruct (IH (i + 1) (acc * 256 + b) x j F ltac:(lia) R) as [-> [low [X L]]]. cbn [bind].
    assert (P : 256 ^ Z.of_nat (S n) = 256 * 256 ^ Z.of_nat n) by (rewrite Nat2Z.inj_succ, Z.pow_succ_r by lia; reflexivity).
    set (m := 256 ^ Z.of_nat n) in *. assert (D : x / m = acc * 256 + b) by (rewrite X, Z.div_add_l, Z.div_small by lia; lia).
    split.
    + rewrite hex_byte_digits by exact O. rewrite D. cbn [app].
      assert (E : acc * 256 + b = b + acc * 16 * 16) by ring. rewrite E, Z.div_add, !Z.mod_add by lia. reflexivity.
    + exists (b * m + low). rewrite P. split; [rewrite X; ring|nia].
Qed.
Lemma read_be_low code n i x j : Forall octet code -> read_be code i n 0 = Ok (x, j) -> 0 <= x < 256 ^ Z.of_nat n.
Proof.
  intros F R. replace i with (i - 1 + 1) in R by lia. destruct (show_number_read code n (i - 1) 0 x j F ltac:(lia) R) as [_ [low [-> L]]]. lia.
Qed.
Lemma number_shown code n i x j : Forall octet code -> read_be code (i + 1) n 0 = Ok (x, j) -> show_number n code i 0 = Ok (x, j - 1, hex n x).
Proof. intros F R. apply (show_number_read code n i 0 x j F ltac:(lia) R). Qed.

Lemma numbers_shown code w n : forall i xs j, Forall octet code -> operands code w (i + 1) n = Ok (xs, j) ->
  show_numbers n (wbytes w) code i = Ok (j - 1, concat (map show_field (map (Number (wbytes w)) xs))) /\ zlength xs = Z.of_nat n /\
  Forall (fun x => 0 <= x < 256 ^ Z.of_nat (wbytes w)) xs.
Proof.
  induction n as [|n IH]; intros i xs j F R; cbn [operands show_numbers] in *.
  - injection R as <- <-. repeat split; [|constructor]. cbn. repeat f_equal. lia.
  - unfold operand in R. destruct (read_be code (i + 1) (wbytes w) 0) as [[x ip1]|?| |] eqn:E; try discriminate. cbn [bind] in R.
    destruct (operands code w ip1 n) as [[r ip2]|?| |] eqn:E2; try discriminate. cbn [bind] in R. injection R as <- <-.
    rewrite (number_shown _ _ _ _ _ F E). cbn [bind].
    replace ip1 with (ip1 - 1 + 1) in E2 by lia. destruct (IH _ _ _ F E2) as [-> [L B]]. cbn [bind map concat show_field app]. repeat split.
    + unfold zlength in *. cbn [length]. lia.
    + constructor; [eapply read_be_low; eassumption|exact B].
Qed.
Lemma text_shown code n : forall i s j, read_bytes code (i + 1) n = Ok (s, j) ->
  show_text n code i = Ok (j - 1, map blank s) /\ zlength s = Z.of_nat n.
Proof.
  induction n as [|n IH]; intros i s j R; cbn [read_bytes show_text] in *.
  - injection R as <- <-. split; [cbn; repeat f_equal; lia|reflexivity].
  - destruct (byte code (i + 1)) as [[b ip']|?| |] eqn:B; try discriminate. cbn [bind] in R.
    apply byte_inv in B. destruct B as [B ->]. rewrite B. cbn [bind].
    destruct (read_bytes code (i + 1 + 1) n) as [[r ip2]|?| |] eqn:E2; try discriminate. cbn [bind] in R. injection R as <- <-.
    destruct (IH _ _ _ E2) as [-> L]. cbn [bind map]. split; [reflexivity|]. unfold zlength in *. cbn [length]. lia.
Qed.

(** ** Operand by operand *)
Lemma read_be_end code n : forall ip acc x j, read_be code ip n acc = Ok (x, j) -> j = ip + Z.of_nat n.
Proof.
  induction n as [|n IH]; intros ip acc x j R; cbn [read_be] in R; [injection R as _ <-; lia|].
  destruct (byte code ip) as [[b ip']|?| |] eqn:B; try discriminate. cbn [bind] in R. apply byte_inv in B. destruct B as [_ ->].
  apply IH in R. lia.
Qed.
Lemma operands_end code w n : forall ip xs j, operands code w ip n = Ok (xs, j) -> j = ip + Z.of_nat (wbytes w) * Z.of_nat n.
Proof.
  induction n as [|n IH]; intros ip xs j R; cbn [operands] in R; [injection R as _ <-; lia|].
  unfold operand in R. destruct (read_be code ip (wbytes w) 0) as [[x ip']|?| |] eqn:B; try discriminate. cbn [bind] in R. apply read_be_end in B.
  destruct (operands code w ip' n) as [[r ip2]|?| |] eqn:E2; try discriminate. cbn [bind] in R. injection R as _ <-. apply IH in E2. lia.
Qed.
Lemma byte_read code a b j : byte code a = Ok (b, j) -> read_be code a 1 0 = Ok (b, j).
Proof. intros H. cbn [read_be]. rewrite H. cbn [bind]. repeat f_equal. lia. Qed.
Lemma signed_low w x : signed w x mod 256 ^ Z.of_nat (wbytes w) = x mod 256 ^ Z.of_nat (wbytes w).
Proof.
  unfold signed. cbv zeta. replace (2 ^ (8 * Z.of_nat (wbytes w))) with (256 ^ Z.of_nat (wbytes w)) by (destruct w; reflexivity).
  destruct (_ <=? x); [|reflexivity]. replace (x - 256 ^ Z.of_nat (wbytes w)) with (x + -1 * 256 ^ Z.of_nat (wbytes w)) by ring.
  apply Z.mod_add. destruct w; discriminate.
Qed.

Definition digit_of (n : nat) : Z := match n with 1%nat => 49 | 2%nat => 50 | _ => 52 end.
Lemma so_number n r code args i a x y j k out : (n = 1 \/ n = 2 \/ n = 4)%nat -> Forall octet code -> a = i + 1 -> (length args < 5)%nat ->
  read_be code a n 0 = Ok (x, j) -> y mod 256 ^ Z.of_nat n = x mod 256 ^ Z.of_nat n ->
  show_operands r code (args ++ [(x, n)]) (j - 1) = Ok (k, out) ->
  show_operands (digit_of n :: r) code args i = Ok (k, show_field (Number n y) ++ out).
Proof.
  intros N F -> L R Y H. pose proof (number_shown _ _ _ _ _ F R) as S. apply Nat.leb_gt in L. assert (E : show_field (Number n y) = show_field (Number n x)) by (unfold show_field; f_equal; apply hex_low, Y). rewrite E.
  destruct N as [-> | [-> | ->]]; cbn [digit_of show_operands]; rewrite S; cbn [bind]; rewrite L; rewrite H; reflexivity.
Qed.
Lemma so_space r code args i : show_operands (32 :: r) code args i = show_operands r code args i.
Proof. reflexivity. Qed.
Lemma so_text d r code args i a n z s j k out : a = i + 1 -> array_get args (d - 48) = Ok (n, z) ->
  read_bytes code a (Z.to_nat n) = Ok (s, j) -> show_operands r code args (j - 1) = Ok (k, out) ->
  show_operands (115 :: d :: r) code args i = Ok (k, show_field (Text s) ++ out).
Proof.
  intros -> A R H. destruct (text_shown _ _ _ _ _ R) as [T _]. cbn [show_operands]. rewrite A. cbn [bind]. rewrite T. cbn [bind]. rewrite H. cbn [bind show_field app].
  rewrite <- app_assoc. reflexivity.
Qed.
Lemma so_numbers c d r code args i a n z w xs j k out : c = 118 /\ z = wbytes w \/ c = 86 /\ w = W32 -> Forall octet code -> a = i + 1 -> array_get args (d - 48) = Ok (n, z) ->
  operands code w a (Z.to_nat n) = Ok (xs, j) -> show_operands r code args (j - 1) = Ok (k, out) ->
  show_operands (c :: d :: r) code args i = Ok (k, concat (map show_field (map (Number (wbytes w)) xs)) ++ out).
Proof.
  intros C F -> A R H. destruct (numbers_shown _ _ _ _ _ _ F R) as [T _].
  destruct C as [[-> ->] | [-> ->]]; cbn [show_operands]; rewrite A; cbn [bind].
  - rewrite T. cbn [bind]. rewrite H. reflexivity.
  - change 4%nat with (wbytes W32). rewrite T. cbn [bind]. rewrite H. reflexivity.
Qed.
Lemma so_end code args i : show_operands [] code args i = Ok (i, []).
Proof. reflexivity. Qed.

Lemma captures_shown us : map show_field (map (Number 4) (map (signed W32) us)) = map show_field (map (Number 4) us).
Proof. induction us as [|u us IH]; [reflexivity|]. cbn [map]. rewrite IH. f_equal. unfold show_field. f_equal. apply hex_low, (signed_low W32). Qed.

(** ** One instruction *)
Lemma classified op c w : classify op = Some (c, w) -> op = opcode c w.
Proof.
  destruct op as [|p|p]; intros H; [injection H as <- <-; reflexivity| |discriminate].
  do 8 (destruct p as [p|p|]; try (cbn in H; discriminate H); try (injection H as <- <-; reflexivity)).
Qed.

Ltac decoded H :=
  repeat match type of H with
  | bind ?m _ = Ok _ => let E := fresh "E" in destruct m as [[? ?]|?| |] eqn:E; try discriminate H; cbn [bind] in H
  end.
Lemma read_bytes_length code n : forall i s j, read_bytes code i n = Ok (s, j) -> zlength s = Z.of_nat n.
Proof. intros i s j H. replace i with (i - 1 + 1) in H by lia. apply text_shown in H. apply H. Qed.
Lemma operands_length code w n : forall i s j, operands code w i n = Ok (s, j) -> zlength s = Z.of_nat n.
Proof.
  induction n as [|n IH]; intros i xs j R; cbn [operands] in R; [injection R as <- _; reflexivity|].
  destruct (operand code w i) as [[x ip']|?| |]; try discriminate. cbn [bind] in R.
  destruct (operands code w ip' n) as [[r ip2]|?| |] eqn:E2; try discriminate. cbn [bind] in R. injection R as <- _. apply IH in E2. unfold zlength in *. cbn [length]. lia.
Qed.
Ltac facts F :=
  unfold operand in *; repeat match goal with E : byte _ _ = Ok _ |- _ => apply byte_read in E end;
  repeat match goal with E : read_be _ _ _ _ = Ok _ |- _ =>
    let D := fresh "D" in pose proof (read_be_end _ _ _ _ _ _ E) as D; let B := fresh "B" in pose proof (read_be_low _ _ _ _ _ F E) as B; cbn [wbytes] in D, B, E; revert E D B end; intros;
  repeat match goal with E : operands _ _ _ _ = Ok _ |- _ =>
    let D := fresh "D" in pose proof (operands_end _ _ _ _ _ _ E) as D; let B := fresh "B" in pose proof (operands_length _ _ _ _ _ _ E) as B; cbn [wbytes] in D; revert E D B end; intros;
  repeat match goal with E : read_bytes _ _ _ = Ok _ |- _ => let B := fresh "B" in pose proof (read_bytes_length _ _ _ _ _ E) as B; revert E B end; intros.
Ltac low := first [reflexivity | (apply (f_equal (fun z => z mod _)); lia) |
  match goal with |- ?y mod 256 ^ Z.of_nat ?n = ?x mod _ =>
    let w := match n with 1%nat => W8 | 2%nat => W16 | 4%nat => W32 end in
    let E := fresh "E" in assert (E : y = signed w x) by lia; rewrite E; apply (signed_low w) end].
Ltac number n :=
  match goal with E : read_be ?code ?a n 0 = Ok (?x, ?j) |- show_operands _ ?code _ ?i = _ =>
    let A := fresh "A" in assert (A : a = i + 1) by lia;
    apply (so_number n _ _ _ _ a x _ j); [auto|assumption|exact A|cbn; lia|exact E|low|cbn [app]] end.
Ltac shown_step :=
  match goal with
  | |- show_operands [] _ _ _ = _ => rewrite so_end; repeat f_equal; lia
  | |- show_operands (32 :: _) _ _ _ = _ => rewrite so_space
  | |- show_operands (49 :: _) _ _ _ = _ => number 1%nat
  | |- show_operands (50 :: _) _ _ _ = _ => number 2%nat
  | |- show_operands (52 :: _) _ _ _ = _ => number 4%nat
  | E : read_bytes ?code ?a (Z.to_nat ?n) = Ok (?s, ?j) |- show_operands (115 :: _) ?code _ ?i = _ =>
      let A := fresh "A" in assert (A : a = i + 1) by lia; eapply (so_text _ _ _ _ _ a n _ s j); [exact A|reflexivity|exact E|]
  | E : operands ?code ?w ?a (Z.to_nat ?n) = Ok (?xs, ?j) |- show_operands (_ :: _) ?code _ ?i = _ =>
      let A := fresh "A" in assert (A : a = i + 1) by lia; eapply (so_numbers _ _ _ _ _ _ a n _ w xs j); [auto|assumption|exact A|reflexivity|exact E|]
  end.

Lemma shown code ip op name format out next : array_get code ip = Ok op -> option_map take_name (template op) = Some (name, format) ->
  show_operands format code [] ip = Ok (next - 1, out) -> show_instruction code ip = Ok (next - 1, name ++ out ++ [10]).
Proof.
  intros A T S. unfold show_instruction. rewrite A. cbn [bind]. destruct (template op) as [f|]; [|discriminate]. cbn [option_map] in T.
  injection T as T. rewrite T, S. reflexivity.
Qed.

Lemma instruction_shown code ip op c w i next : Forall octet code -> array_get code ip = Ok op -> classify op = Some (c, w) ->
  decode code ip = Ok (i, next) -> legible w i = true -> show_instruction code ip = Ok (next - 1, line w i next).
Proof.
  intros F A C D L. unfold decode in D. unfold byte at 1 in D. rewrite A in D. cbn [bind] in D. rewrite C in D.
  pose proof (classified _ _ _ C) as ->.
  assert (K : exists name format, option_map take_name (template (opcode c w)) = Some (name, format) /\
    name = text (instr_name i) ++ (if sized i then text (size_name w) else []) /\
    show_operands format code [] ip = Ok (next - 1, concat (map show_field (fields w i next)))).
  2:{ destruct K as [name [format [T [N S]]]]. rewrite (shown code ip _ name format _ next A T S). unfold line. rewrite N, <- app_assoc. reflexivity. }
  destruct c; repeat match goal with u : unop |- _ => destruct u | b : binop |- _ => destruct b | t : ternop |- _ => destruct t end;
    destruct w; try discriminate C; decoded D; try discriminate D; injection D as <- <-; try discriminate L; facts F.
  all: eexists; eexists; (split; [vm_compute; reflexivity|]); (split; [reflexivity|]); cbn [fields map concat wbytes].
  all: try (repeat shown_step; fail).
  all: try (rewrite <- (app_nil_r (concat (map show_field (map _ _)))); repeat shown_step; fail).
  all: try (assert (LM : zlength (map (signed W32) l) = zlength l) by (unfold zlength; rewrite map_length; reflexivity); rewrite map_app, captures_shown, concat_app; cbn [map concat app];
    rewrite <- !app_assoc, <- (app_nil_r (concat (map show_field (map _ _)))); cbn [app]; repeat shown_step; fail).
  1: apply (so_number 1 _ _ _ _ (ip + 1) z _ z0); [auto|assumption|reflexivity|cbn; lia|exact E|apply (signed_low W8)|rewrite so_end; reflexivity].
  1: apply (so_number 2 _ _ _ _ (ip + 1) z _ z0); [auto|assumption|reflexivity|cbn; lia|exact E|apply (signed_low W16)|rewrite so_end; reflexivity].
  1: apply (so_number 4 _ _ _ _ (ip + 1) z _ z0); [auto|assumption|reflexivity|cbn; lia|exact E|apply (signed_low W32)|rewrite so_end; reflexivity].
  1: (change (show_operands [102] code [] ip) with (Ok (A := Z * list Z) (ip + 8, [])); f_equal; f_equal; lia).
  all: destruct l; [|discriminate L]; change (zlength (@nil Z)) with 0 in *; assert (z = 0) as -> by lia; cbn [map concat];
    shown_step; shown_step; cbn; f_equal; f_equal; lia.
Qed.

(** ** All the instructions *)
Lemma read_bytes_end code n : forall ip s j, read_bytes code ip n = Ok (s, j) -> j = ip + Z.of_nat n.
Proof.
  induction n as [|n IH]; intros ip s j R; cbn [read_bytes] in R; [injection R as _ <-; lia|].
  destruct (byte code ip) as [[b ip']|?| |] eqn:B; try discriminate. cbn [bind] in R. apply byte_inv in B. destruct B as [_ ->].
  destruct (read_bytes code (ip + 1) n) as [[r ip2]|?| |] eqn:E2; try discriminate. cbn [bind] in R. injection R as _ <-. apply IH in E2. lia.
Qed.
Lemma decode_moves code ip i next : decode code ip = Ok (i, next) -> ip < next.
Proof.
  unfold decode. destruct (byte code ip) as [[op ip1]|?| |] eqn:B; try discriminate. cbn [bind]. apply byte_inv in B. destruct B as [_ ->].
  destruct (classify op) as [[c w]|]; [|discriminate]. intros D.
  destruct c; [..|destruct b, w|]; decoded D; try discriminate D; injection D as _ <-; unfold operand in *;
  repeat match goal with
  | E : byte _ _ = Ok _ |- _ => apply byte_read in E
  | E : read_be _ _ _ _ = Ok _ |- _ => apply read_be_end in E
  | E : operands _ _ _ _ = Ok _ |- _ => apply operands_end in E
  | E : read_bytes _ _ _ = Ok _ |- _ => apply read_bytes_end in E
  end; try lia; destruct w; cbn [wbytes] in *; lia.
Qed.
Theorem code_shown code is : Forall octet code -> reads code 0 is -> Forall (fun x => legible (fst (fst x)) (snd (fst x)) = true) is ->
  disassemble code = Ok (listing is).
Proof.
  intros F R L.
  assert (K : forall is ip, reads code ip is -> Forall (fun x => legible (fst (fst x)) (snd (fst x)) = true) is -> 0 <= ip ->
    forall fuel, zlength code <= ip + Z.of_nat fuel -> show_all fuel code ip = Ok (concat (map (fun x => line (fst (fst x)) (snd (fst x)) (snd x)) is))).
  { clear is R L. induction 1 as [|ip op c w i next is N C D _ IH]; intros LE P fuel FU.
    - destruct fuel; cbn [show_all]; rewrite Z.ltb_irrefl; reflexivity.
    - inversion LE as [|? ? L0 L1]; subst. cbn [fst snd] in L0.
      assert (Z.to_nat ip < length code)%nat as B by (apply nth_error_Some; congruence).
      assert (ip <? zlength code = true) as E by (unfold zlength; lia).
      destruct fuel as [|fuel]; cbn [show_all]; rewrite E; [unfold zlength in FU; lia|].
      assert (A : array_get code ip = Ok op) by (unfold array_get; destruct (ip <? 0) eqn:Q; [lia|]; rewrite N; reflexivity).
      rewrite (instruction_shown code ip op c w i next F A C D L0). cbn [bind].
      pose proof (decode_moves _ _ _ _ D) as M. replace (next - 1 + 1) with next by lia.
      rewrite (IH L1 ltac:(lia) fuel) by lia. cbn [bind map concat fst snd]. reflexivity. }
  unfold disassemble. rewrite (K is 0 R L ltac:(lia) (length code)) by (unfold zlength; lia). cbn [bind]. reflexivity.
Qed.

Lemma illegal_shown code ip op : array_get code ip = Ok op -> octet op -> 166 < op -> show_instruction code ip = Ok (ip, illegal_line op).
Proof.
  intros A O G. unfold show_instruction. rewrite A. cbn [bind].
  assert (template op = None) as ->.
  { unfold template. destruct (find _ _) as [t|] eqn:E; [|reflexivity]. exfalso. apply find_some in E as [I E]. rewrite <- in_rev in I.
    assert (forallb (fun t => fst t <=? 166) templates = true) as H by (vm_compute; reflexivity). rewrite forallb_forall in H. specialize (H t I). lia. }
  unfold illegal_line. rewrite (hex_byte_digits _ O). cbn [hex]. change (256 ^ Z.of_nat 0) with 1. rewrite Z.div_1_r. reflexivity.
Qed.
Theorem bytes_shown code out : Forall octet code -> scans code 0 out ->
  disassemble code = Ok (text "DISASSEMBLY START" ++ [10] ++ out ++ text "DISASSEMBLY END" ++ [10; 0]).
Proof.
  intros F R.
  assert (K : forall out ip, scans code ip out -> 0 <= ip -> forall fuel, zlength code <= ip + Z.of_nat fuel -> show_all fuel code ip = Ok out).
  { clear out R. induction 1 as [|ip op c w i next out N C D L _ IH|ip op out N G _ IH]; intros P fuel FU.
    - destruct fuel; cbn [show_all]; rewrite Z.ltb_irrefl; reflexivity.
    - assert (Z.to_nat ip < length code)%nat as B by (apply nth_error_Some; congruence).
      assert (ip <? zlength code = true) as E by (unfold zlength; lia).
      destruct fuel as [|fuel]; cbn [show_all]; rewrite E; [unfold zlength in FU; lia|].
      assert (A : array_get code ip = Ok op) by (unfold array_get; destruct (ip <? 0) eqn:Q; [lia|]; rewrite N; reflexivity).
      rewrite (instruction_shown code ip op c w i next F A C D L). cbn [bind].
      pose proof (decode_moves _ _ _ _ D) as M. replace (next - 1 + 1) with next by lia.
      rewrite (IH ltac:(lia) fuel) by lia. reflexivity.
    - assert (Z.to_nat ip < length code)%nat as B by (apply nth_error_Some; congruence).
      assert (ip <? zlength code = true) as E by (unfold zlength; lia).
      destruct fuel as [|fuel]; cbn [show_all]; rewrite E; [unfold zlength in FU; lia|].
      assert (A : array_get code ip = Ok op) by (unfold array_get; destruct (ip <? 0) eqn:Q; [lia|]; rewrite N; reflexivity).
      rewrite (illegal_shown code ip op A (byte_octet _ _ _ F A) G). cbn [bind]. rewrite (IH ltac:(lia) fuel) by lia. reflexivity. }
  unfold disassemble. rewrite (K out 0 R ltac:(lia) (length code)) by (unfold zlength; lia). reflexivity.
Qed.

(** ** Assembled programs *)
Lemma laid_reads strip prog code off addr : laid_out strip prog code off addr ->
  forall n k, (k + n = length prog)%nat -> 0 <= off k -> exists is, reads code (off k) is /\
    map (fun x => snd (fst x)) is = flat_map (fun a => match meaning strip addr a with Some i => [i] | None => [] end) (skipn k prog).
Proof.
  intros [S0 S1 _ SI SP]. induction n as [|n IH]; intros k E P.
  - exists []. replace k with (length prog) by lia. rewrite S1, skipn_all. split; [constructor|reflexivity].
  - destruct (nth_error prog k) as [a|] eqn:N; [|apply nth_error_None in N; lia].
    assert (SK : skipn k prog = a :: skipn (S k) prog).
    { clear - N. revert k N. induction prog as [|b prog IH]; intros [|k] N; try discriminate; cbn in *; [injection N as ->; reflexivity|]. apply IH, N. }
    rewrite SK. cbn [flat_map]. destruct (meaning strip addr a) as [i|] eqn:M.
    + pose proof (SI k a i N M) as D. pose proof (decode_moves _ _ _ _ D). destruct (IH (S k) ltac:(lia) ltac:(lia)) as [is [R Q]].
      unfold decode, byte in D. destruct (array_get code (off k)) as [op|?| |] eqn:A; try discriminate. cbn [bind] in D.
      destruct (classify op) as [[c w]|] eqn:C; [|discriminate].
      exists ((w, i, off (S k)) :: is). split; [|cbn [map fst snd app]; rewrite Q; reflexivity].
      apply get_inv in A. eapply reads_more; [apply A|exact C|exact (SI k a i N M)|exact R].
    + pose proof (SP k a N M) as Q. destruct (IH (S k) ltac:(lia) ltac:(lia)) as [is [R T]]. exists is. rewrite <- Q. auto.
Qed.
Theorem assembled_shown strip prog code off addr : laid_out strip prog code off addr -> Forall octet code ->
  exists is, reads code 0 is /\
    map (fun x => snd (fst x)) is = flat_map (fun a => match meaning strip addr a with Some i => [i] | None => [] end) prog /\
    (Forall (fun x => legible (fst (fst x)) (snd (fst x)) = true) is -> disassemble code = Ok (listing is)).
Proof.
  intros L F. destruct (laid_reads strip prog code off addr L (length prog) 0 ltac:(lia)) as [is [R Q]]; [rewrite (lo_start _ _ _ _ _ L); lia|].
  rewrite (lo_start _ _ _ _ _ L) in R. exists is. split; [exact R|]. split; [exact Q|]. apply code_shown; assumption.
Qed.
