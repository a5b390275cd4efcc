(** A program made of pieces keeps to its frames (C58). *)
From Coq Require Import ZArith List Bool Lia Arith ZifyBool ZifyNat.
From Verif Require Import M_Base M_Trie M_Instr M_Asm M_Parser S_Frame P_Frame.
Import ListNotations.
Open Scope Z_scope.

(** A height and an owner for every position. *)
Definition local (L : Z -> Z * Z) (C : Z -> Z) (p : Z * Z) (a : ainstr) (q : Z * Z) : Prop :=
  0 <= fst p /\
  match a with
  | ALabel l => L l = p /\ q = p
  | AJump l => L l = p
  | AReturn c => 0 <= c /\ fst p = c + 1 /\ snd p <> -1
  | AHalt => False
  | _ => fine L C (snd p) (fst p) a (fst q) /\ snd q = snd p
  end.
Definition annotates (L : Z -> Z * Z) (C : Z -> Z) (N : nat -> Z * Z) (c : list ainstr) : Prop :=
  forall k a, nth_error c k = Some a -> local L C (N k) a (N (S k)).

Lemma annotate L C f h c h' : flow L C f h c h' ->
  exists N, N 0%nat = (h, f) /\ N (length c) = (h', f) /\ annotates L C N c.
Proof.
  induction 1 as [f h H0|f h a h1 r h' H0 F G IH|f h l r h' H0 E G IH|f h l h1 r h' H0 E G IH
    |f h s g kk b c r h' H0 Hk Hg Es Eg G1 IH1 Hc G2 IH2].
  - exists (fun _ => (h, f)). split; [reflexivity|]. split; [reflexivity|]. intros k0 a0 E0. destruct k0; discriminate.
  - destruct IH as (N & N0 & N1 & NA).
    exists (fun k => match k with O => (h, f) | S k => N k end). cbn [length]. split; [reflexivity|]. split; [auto|].
    intros k x E. destruct k as [|k]; cbn [nth_error] in E; [|exact (NA k x E)]. injection E as <-.
    unfold local. rewrite N0. cbn [fst snd]. split; [auto|]. destruct a; try (split; [exact F|reflexivity]); exfalso; exact F.
  - destruct IH as (N & N0 & N1 & NA).
    exists (fun k => match k with O => (h, f) | S k => N k end). cbn [length]. split; [reflexivity|]. split; [auto|].
    intros k x E1. destruct k as [|k]; cbn [nth_error] in E1; [|exact (NA k x E1)]. injection E1 as <-.
    unfold local. rewrite N0. cbn [fst snd]. auto.
  - destruct IH as (N & N0 & N1 & NA).
    exists (fun k => match k with O => (h, f) | S k => N k end). cbn [length]. split; [reflexivity|]. split; [auto|].
    intros k x E1. destruct k as [|k]; cbn [nth_error] in E1; [|exact (NA k x E1)]. injection E1 as <-.
    unfold local. cbn [fst snd]. auto.
  - destruct IH1 as (N & N0 & N1 & NA). destruct IH2 as (M & M0 & M1 & MA).
    exists (fun i => match i with
                     | O => (h, f)
                     | S O => (kk, g)
                     | S (S i) => if (i <=? length b)%nat then N i else
                                  if (i =? S (length b))%nat then (h, f) else M (i - S (S (length b)))%nat
                     end).
    cbn [length]. split; [reflexivity|]. split.
    + rewrite app_length. cbn [length].
      destruct (Nat.leb_spec (length b + S (S (length r))) (length b)); [lia|].
      destruct (Nat.eqb_spec (length b + S (S (length r))) (S (length b))); [lia|].
      rewrite <- M1. f_equal. lia.
    + intros i x E. destruct i as [|[|i]]; cbn [nth_error] in E.
      * injection E as <-. unfold local. cbn [fst snd]. auto.
      * injection E as <-. unfold local. cbn [fst snd Nat.leb]. rewrite N0. auto.
      * destruct (Nat.ltb_spec i (length b)) as [Q|Q].
        -- rewrite nth_error_app1 in E by auto. destruct (Nat.leb_spec i (length b)); [|lia].
           destruct (Nat.leb_spec (S i) (length b)); [|lia]. exact (NA i x E).
        -- rewrite nth_error_app2 in E by auto. remember (i - length b)%nat as j eqn:J.
           destruct j as [|[|j]]; cbn [nth_error] in E.
           ++ injection E as <-. destruct (Nat.leb_spec i (length b)); [|lia].
              replace i with (length b) by lia. rewrite N1. unfold local. cbn [fst snd]. repeat split; auto; lia.
           ++ injection E as <-. destruct (Nat.leb_spec i (length b)); [lia|].
              destruct (Nat.eqb_spec i (S (length b))); [|lia].
              destruct (Nat.leb_spec (S i) (length b)); [lia|].
              destruct (Nat.eqb_spec (S i) (S (length b))); [lia|].
              replace (S i - S (S (length b)))%nat with 0%nat by lia. rewrite M0. unfold local. cbn [fst snd]. auto.
           ++ destruct (Nat.leb_spec i (length b)); [lia|].
              destruct (Nat.eqb_spec i (S (length b))); [lia|].
              destruct (Nat.leb_spec (S i) (length b)); [lia|].
              destruct (Nat.eqb_spec (S i) (S (length b))); [lia|].
              replace (i - S (S (length b)))%nat with j by lia.
              replace (S i - S (S (length b)))%nat with (S j) by lia. exact (MA j x E).
Qed.

(** Labels that occur once. *)
Lemma labels_none c l : labels c l = 0 -> forall j, nth_error c j <> Some (ALabel l).
Proof.
  induction c as [|a c IH]; intros E j; [destruct j; discriminate|].
  rewrite labels_cons in E. assert (0 <= labels [a] l) by (unfold labels; lia). assert (0 <= labels c l) by (unfold labels; lia).
  destruct j as [|j]; cbn [nth_error]; [|apply IH; lia].
  intros Q. injection Q as ->. rewrite labels_label, Z.eqb_refl in E. lia.
Qed.
Lemma labels_one c l : labels c l = 1 -> exists j, nth_error c j = Some (ALabel l) /\
  forall j', nth_error c j' = Some (ALabel l) -> j' = j.
Proof.
  induction c as [|a c IH]; intros E; [discriminate|].
  rewrite labels_cons in E. assert (0 <= labels [a] l) by (unfold labels; lia). assert (0 <= labels c l) by (unfold labels; lia).
  destruct (Z.eq_dec (labels [a] l) 0) as [Q|Q].
  - destruct IH as (j & J1 & J2); [lia|]. exists (S j). split; [exact J1|].
    intros [|j'] E'; cbn [nth_error] in E'; [|f_equal; auto].
    injection E' as ->. rewrite labels_label, Z.eqb_refl in Q. lia.
  - exists 0%nat. split.
    + cbn [nth_error]. f_equal. destruct a; try (exfalso; apply Q; reflexivity).
      rewrite labels_label in Q. destruct (Z.eqb_spec label l); [congruence|lia].
    + intros [|j'] E'; [reflexivity|]. exfalso. apply (labels_none c l ltac:(lia) j'). exact E'.
Qed.

Theorem pieces_framed_at m c h l K : piece (-1) m 0 c [] h 0 l K -> K <= 0 -> 1 <= h ->
  exists y, framed (c ++ [AHalt]) y /\ height y (length c) = h.
Proof.
  intros [P Q (L0 & C0 & F)] HK Hh.
  set (L := fun x => if (0 <=? x) && (x <? l) then L0 x else (-1, -1)).
  set (C := fun x => if (0 <=? x) && (x <? l) then C0 x else 0).
  destruct (F L C) as [G _].
  { intros x R. unfold L. destruct (Z.leb_spec 0 x); destruct (Z.ltb_spec x l); cbn [andb]; auto; lia. }
  { intros x R. unfold C. destruct (Z.leb_spec 0 x); destruct (Z.ltb_spec x l); cbn [andb]; auto; lia. }
  { unfold C. cbn. exact HK. }
  apply annotate in G as (N & N0 & N1 & NA).
  assert (LL : forall x h f, L x = (h, f) -> 0 <= h -> exists j, nth_error c j = Some (ALabel x) /\
    N j = (h, f) /\ forall j', nth_error (c ++ [AHalt]) j' = Some (ALabel x) -> j' = j).
  { intros x hx fx E Hx. assert (B : (0 <=? x) && (x <? l) = true).
    { unfold L in E. destruct ((0 <=? x) && (x <? l)); [reflexivity|]. injection E as <- <-. lia. }
    pose proof (Q x) as Qx. rewrite B, labels_nil, Z.add_0_r in Qx.
    destruct (labels_one c x Qx) as (j & J1 & J2). exists j. split; [exact J1|]. split.
    - pose proof (NA j _ J1) as [_ [E' _]]. congruence.
    - intros j' E'. destruct (Nat.ltb_spec j' (length c)).
      + rewrite nth_error_app1 in E' by auto. auto.
      + rewrite nth_error_app2 in E' by auto. destruct (j' - length c)%nat as [|[|?]]; discriminate. }
  set (y := Layout (fun k => fst (N k)) (fun k => snd (N k)) C).
  assert (T : forall x h f, L x = (h, f) -> 0 <= h -> target (c ++ [AHalt]) y x h f).
  { intros x hx fx E Hx. destruct (LL x hx fx E Hx) as (j & J1 & J2 & J3). exists j. cbn [y height owner].
    rewrite J2. repeat split; auto. rewrite nth_error_app1; auto. apply nth_error_Some. congruence. }
  exists y. split; [|cbn; rewrite N1; reflexivity]. split; [cbn; rewrite N0; reflexivity|]. split; [cbn; rewrite N0; reflexivity|]. split; [reflexivity|].
  intros k a E. destruct (Nat.ltb_spec k (length c)) as [B|B].
  - rewrite nth_error_app1 in E by auto. pose proof (NA k a E) as [H1 H2]. split; [exact H1|].
    unfold frame_at. cbn [y height owner captured]. destruct (N k) as [hk fk]; destruct (N (S k)) as [hk' fk']. cbn [fst snd] in *.
    destruct a; cbn [fine] in H2; try contradiction; try (destruct H2 as [[] _]; fail);
      try (destruct H2 as [((d & D1 & D2) & D3 & D4 & D5) ->]; split; [exists d; auto|split; [exact D3|split; [exact D4|exact D5]]]; fail).
    + destruct H2 as [((d & D1 & D2) & D3 & D4 & D5 & D6 & D7 & D8) ->].
      split; [exists d; auto|]. split; [exact D3|]. split; [exact D4|]. split; [exact D5|]. split; [exact D6|].
      split; [apply T; [exact D7|destruct variadic; lia]|exact D8].
    + destruct H2 as [(A1 & A2 & A3) ->]. auto.
    + destruct H2 as [(A1 & A2 & A3) ->]. auto.
    + destruct H2 as [(n & A1 & A2) ->]. exists n. auto.
    + apply T; auto.
    + destruct H2 as [(A1 & A2 & A3 & A4) ->]. split; [exact A1|]. split; [exact A2|]. split; [apply T; [exact A3|lia]|auto].
    + exact H2.
    + destruct H2 as [_ H2]. injection H2 as -> ->. auto.
  - rewrite nth_error_app2 in E by auto. remember (k - length c)%nat as j eqn:J.
    destruct j as [|[|j]]; try discriminate. injection E as <-.
    assert (k = length c) by lia. subst k. cbn [frame_at y height owner]. rewrite N1. cbn [fst snd]. lia.
Qed.
Theorem pieces_framed m c h l K : piece (-1) m 0 c [] h 0 l K -> K <= 0 -> 1 <= h ->
  exists y, framed (c ++ [AHalt]) y.
Proof. intros P HK Hh. destruct (pieces_framed_at m c h l K P HK Hh) as (y & F & _). eauto. Qed.
