(** Code that keeps to its frame: a compositional reading of S_Frame, and its pieces (C58). *)
From Coq Require Import ZArith List Bool Lia Arith ZifyBool ZifyNat.
From Verif Require Import M_Base M_Trie M_Instr M_Asm M_Parser S_Frame.
Import ListNotations.
Open Scope Z_scope.

(** [at_ L C f h a h']: instruction [a] takes function [f] from height [h] to height [h'].  [L] gives
    every label its height and function, [C] the number of captured variables. *)
Definition fine (L : Z -> Z * Z) (C : Z -> Z) (f h : Z) (a : ainstr) (h' : Z) : Prop :=
  match a with
  | AHalt | AReturn _ | AJump _ | ALabel _ | ACall _ _ => False
  | ABrnz l p => 1 <= h /\ 0 <= p <= h /\ L l = (h - p, f) /\ h' = h - p
  | AFuncall i n => 0 <= n < i /\ i <= h /\ h' = h - n + 1
  | AApply i n => 0 <= n /\ n + 1 < i <= h /\ h' = h - n
  | ACcall _ => exists n, 0 <= n <= h /\ h' = h - n + 1
  | _ =>
    (exists d, effect a = Some d /\ h' = h + d) /\
    Forall (fun i => 1 <= i <= h) (uses a) /\
    Forall (fun u => 0 <= u < C f) (captured_uses a) /\
    match a with
    | APop n => 1 <= n <= h
    | APushClosure variadic l arity cs =>
      0 <= arity /\ Forall (fun c => c <= h) cs /\
      L l = (arity + (if variadic then 1 else 0), l) /\ C l = Z.of_nat (length cs)
    | _ => True
    end
  end.

Inductive flow (L : Z -> Z * Z) (C : Z -> Z) : Z -> Z -> list ainstr -> Z -> Prop :=
| f_nil f h : 0 <= h -> flow L C f h [] h
| f_step f h a h1 r h' : 0 <= h -> fine L C f h a h1 -> flow L C f h1 r h' -> flow L C f h (a :: r) h'
| f_label f h l r h' : 0 <= h -> L l = (h, f) -> flow L C f h r h' -> flow L C f h (ALabel l :: r) h'
| f_jump f h l h1 r h' : 0 <= h -> L l = (h, f) -> flow L C f h1 r h' -> flow L C f h (AJump l :: r) h'
| f_function f h s g k b c r h' : 0 <= h -> 0 <= k -> g <> -1 -> L s = (h, f) -> L g = (k, g) ->
    flow L C g k b (c + 1) -> 0 <= c -> flow L C f h r h' ->
    flow L C f h (AJump s :: ALabel g :: b ++ AReturn c :: ALabel s :: r) h'.

Lemma flow_app L C f h c h1 : flow L C f h c h1 -> forall d h2, flow L C f h1 d h2 -> flow L C f h (c ++ d) h2.
Proof.
  induction 1; intros d h2 D; cbn [app].
  - exact D.
  - eapply f_step; eauto.
  - apply f_label; auto.
  - eapply f_jump; eauto.
  - rewrite <- app_assoc. cbn [app]. apply (f_function L C f h s g k b c); auto.
Qed.
Lemma flow_pos L C f h c h' : flow L C f h c h' -> 0 <= h'.
Proof. induction 1; auto. Qed.

(** * Pieces: code together with the labels it defines *)

Definition labels (c : list ainstr) (l : Z) : Z :=
  Z.of_nat (length (filter (fun a => match a with ALabel k => k =? l | _ => false end) c)).
Lemma labels_app c d l : labels (c ++ d) l = labels c l + labels d l.
Proof. unfold labels. rewrite filter_app, app_length. lia. Qed.
Lemma labels_cons a d l : labels (a :: d) l = labels [a] l + labels d l.
Proof. apply (labels_app [a] d). Qed.
Lemma labels_nil l : labels [] l = 0. Proof. reflexivity. Qed.
Lemma labels_label k l : labels [ALabel k] l = if k =? l then 1 else 0.
Proof. unfold labels. cbn [filter]. destruct (k =? l); reflexivity. Qed.
Lemma labels_other a l : (forall k, a <> ALabel k) -> labels [a] l = 0.
Proof. intros H. unfold labels. destruct a; try reflexivity. exfalso. eapply H; reflexivity. Qed.

Definition on {A} (l0 l1 : Z) (F G : Z -> A) : Prop := forall l, l0 <= l < l1 -> F l = G l.

(** [c] is own code of function [f]; [A] is code of functions appended to the main program, which is
    at height [m].  Between them they define exactly the labels from [l0] below [l1]. [K] bounds the
    captured variables used. *)
Record piece (f m h : Z) (c A : list ainstr) (h' l0 l1 K : Z) : Prop := Piece {
  pc_le : l0 <= l1;
  pc_labels : forall l, labels c l + labels A l = if (l0 <=? l) && (l <? l1) then 1 else 0;
  pc_flow : exists L C, forall L' C', on l0 l1 L L' -> on l0 l1 C C' -> K <= C' f ->
    flow L' C' f h c h' /\ flow L' C' (-1) m A m }.

Definition glue {A} (l1 : Z) (F G : Z -> A) (l : Z) : A := if l <? l1 then F l else G l.
Lemma glue_left {A} l0 l1 (F G H : Z -> A) l2 : l1 <= l2 -> on l0 l2 (glue l1 F G) H -> on l0 l1 F H.
Proof. unfold on, glue. intros Q E l R. rewrite <- (E l) by lia. destruct (Z.ltb_spec l l1); [reflexivity|lia]. Qed.
Lemma glue_right {A} l0 l1 (F G H : Z -> A) l2 : l0 <= l1 -> on l0 l2 (glue l1 F G) H -> on l1 l2 G H.
Proof. unfold on, glue. intros Q E l R. rewrite <- (E l) by lia. destruct (Z.ltb_spec l l1); [lia|reflexivity]. Qed.
Lemma on_less {A} l0 l1 k0 k1 (F G : Z -> A) : l0 <= k0 -> k1 <= l1 -> on l0 l1 F G -> on k0 k1 F G.
Proof. unfold on. intros P Q E l R. apply E. lia. Qed.

Lemma piece_app f m h c A h1 d B h2 l0 l1 l2 K K' :
  piece f m h c A h1 l0 l1 K -> piece f m h1 d B h2 l1 l2 K' -> K <= K' ->
  piece f m h (c ++ d) (A ++ B) h2 l0 l2 K'.
Proof.
  intros [P1 Q1 (L1 & C1 & F1)] [P2 Q2 (L2 & C2 & F2)] KK. split; [lia| |].
  - intros l. rewrite !labels_app. specialize (Q1 l). specialize (Q2 l).
    replace (labels c l + labels d l + (labels A l + labels B l)) with ((labels c l + labels A l) + (labels d l + labels B l)) by lia.
    rewrite Q1, Q2. destruct (Z.leb_spec l0 l); destruct (Z.ltb_spec l l1); destruct (Z.leb_spec l1 l); destruct (Z.ltb_spec l l2); cbn [andb]; lia.
  - exists (glue l1 L1 L2), (glue l1 C1 C2). intros L C EL EC KC.
    destruct (F1 L C) as [X1 Y1]; [eapply glue_left; eauto|eapply glue_left; eauto|lia|].
    destruct (F2 L C) as [X2 Y2]; [eapply glue_right; eauto|eapply glue_right; eauto|lia|].
    split; eapply flow_app; eauto.
Qed.
Lemma piece_nil f m h l K : 0 <= h -> 0 <= m -> piece f m h [] [] h l l K.
Proof.
  intros Hh Hm. split; [lia| |].
  - intros x. rewrite labels_nil. destruct (Z.leb_spec l x); destruct (Z.ltb_spec x l); cbn [andb]; lia.
  - exists (fun _ => (0, 0)), (fun _ => 0). intros. split; apply f_nil; auto.
Qed.

(** One instruction that defines no label and refers to none. *)
Lemma piece_step f m h a h' l K : 0 <= h -> 0 <= h' -> 0 <= m -> (forall k, a <> ALabel k) ->
  (forall L C, K <= C f -> fine L C f h a h') -> piece f m h [a] [] h' l l K.
Proof.
  intros Hh Hh' Hm N F. split; [lia| |].
  - intros x. rewrite labels_nil, labels_other by auto. destruct (Z.leb_spec l x); destruct (Z.ltb_spec x l); cbn [andb]; lia.
  - exists (fun _ => (0, 0)), (fun _ => 0). intros L C _ _ KC. split; [|apply f_nil; auto].
    eapply f_step; [auto|apply F; auto|]. apply f_nil; auto.
Qed.
Lemma piece_more f m h c A h' l0 l1 K K' : piece f m h c A h' l0 l1 K -> K <= K' -> piece f m h c A h' l0 l1 K'.
Proof.
  intros [P Q (L & C & F)] KK. split; auto. exists L, C. intros L' C' E1 E2 E3. apply F; auto. lia.
Qed.

Definition put {A} (l : Z) (x : A) (F : Z -> A) (k : Z) : A := if k =? l then x else F k.
Lemma put_other {A} l (x : A) F k0 k1 G : ~ (k0 <= l < k1) -> on k0 k1 (put l x F) G -> on k0 k1 F G.
Proof.
  unfold on, put. intros N E k R. rewrite <- (E k R). destruct (Z.eqb_spec k l); [subst; exfalso; auto|reflexivity].
Qed.
Lemma put_here {A} l (x : A) F k0 k1 G : on k0 k1 (put l x F) G -> k0 <= l < k1 -> G l = x.
Proof. unfold on, put. intros E R. rewrite <- (E l R), Z.eqb_refl. reflexivity. Qed.

Lemma labels_mark k d l : labels (ALabel k :: d) l = (if k =? l then 1 else 0) + labels d l.
Proof. rewrite labels_cons, labels_label. reflexivity. Qed.
Lemma labels_skip a d l : match a with ALabel _ => False | _ => True end -> labels (a :: d) l = labels d l.
Proof. intros H. rewrite labels_cons, labels_other; [reflexivity|]. intros k ->. exact H. Qed.
Ltac spread_labels := repeat (rewrite labels_app || rewrite labels_mark || (rewrite labels_skip by exact I)); rewrite ?labels_nil.

(** A conditional. *)
Lemma piece_fork f m h p c1 A1 c2 A2 h2 l l1 l2 K1 K2 :
  1 <= h -> 0 <= p <= h ->
  piece f m (h - p) c1 A1 h2 (l + 2) l1 K1 -> piece f m (h - p) c2 A2 h2 l1 l2 K2 -> K1 <= K2 ->
  piece f m h (ABrnz l p :: c1 ++ AJump (l + 1) :: ALabel l :: c2 ++ [ALabel (l + 1)]) (A1 ++ A2) h2 l l2 K2.
Proof.
  intros H1 Hp [P1 Q1 (L1 & C1 & F1)] [P2 Q2 (L2 & C2 & F2)] KK. split; [lia| |].
  - intros x. specialize (Q1 x). specialize (Q2 x). spread_labels.
    destruct (Z.eqb_spec l x); destruct (Z.eqb_spec (l + 1) x);
      destruct (Z.leb_spec (l + 2) x); destruct (Z.ltb_spec x l1); destruct (Z.leb_spec l1 x); destruct (Z.ltb_spec x l2);
      destruct (Z.leb_spec l x); cbn [andb] in *; lia.
  - exists (put l (h - p, f) (put (l + 1) (h2, f) (glue l1 L1 L2))), (glue l1 C1 C2).
    intros L C EL EC KC.
    pose proof (put_here _ _ _ _ _ _ EL ltac:(lia)) as T.
    pose proof (on_less l l2 (l + 1) l2 _ _ ltac:(lia) ltac:(lia) EL) as EL1. apply put_other in EL1; [|lia].
    pose proof (put_here _ _ _ _ _ _ EL1 ltac:(lia)) as E.
    pose proof (on_less (l + 1) l2 (l + 2) l2 _ _ ltac:(lia) ltac:(lia) EL1) as EL2. apply put_other in EL2; [|lia].
    pose proof (on_less l l2 (l + 2) l2 _ _ ltac:(lia) ltac:(lia) EC) as EC2.
    destruct (F1 L C) as [X1 Y1]; [eapply glue_left; eauto|eapply glue_left; eauto|lia|].
    destruct (F2 L C) as [X2 Y2]; [eapply glue_right; eauto; lia|eapply glue_right; eauto; lia|lia|].
    split; [|eapply flow_app; eauto].
    pose proof (flow_pos _ _ _ _ _ _ X1) as G.
    apply (f_step _ _ _ _ _ (h - p)); [lia|cbn [fine]; repeat split; try lia; exact T|].
    eapply flow_app; [exact X1|]. eapply (f_jump _ _ _ _ _ (h - p)); [auto|exact E|].
    apply f_label; [lia|exact T|]. eapply flow_app; [exact X2|]. apply f_label; [auto|exact E|]. apply f_nil; auto.
Qed.

(** A loop. *)
Lemma piece_loop f m h cb A1 cc A2 h1 p l l1 l2 K1 K2 :
  0 <= h -> 1 <= h1 -> 0 <= p -> h1 - p = h ->
  piece f m h cb A1 h (l + 2) l1 K1 -> piece f m h cc A2 h1 l1 l2 K2 -> K1 <= K2 ->
  piece f m h (AJump l :: ALabel (l + 1) :: cb ++ ALabel l :: cc ++ [ABrnz (l + 1) p]) (A1 ++ A2) h l l2 K2.
Proof.
  intros Hh H1 Hp HH [P1 Q1 (L1 & C1 & F1)] [P2 Q2 (L2 & C2 & F2)] KK. split; [lia| |].
  - intros x. specialize (Q1 x). specialize (Q2 x). spread_labels.
    destruct (Z.eqb_spec l x); destruct (Z.eqb_spec (l + 1) x);
      destruct (Z.leb_spec (l + 2) x); destruct (Z.ltb_spec x l1); destruct (Z.leb_spec l1 x); destruct (Z.ltb_spec x l2);
      destruct (Z.leb_spec l x); cbn [andb] in *; lia.
  - exists (put l (h, f) (put (l + 1) (h, f) (glue l1 L1 L2))), (glue l1 C1 C2).
    intros L C EL EC KC.
    pose proof (put_here _ _ _ _ _ _ EL ltac:(lia)) as T.
    pose proof (on_less l l2 (l + 1) l2 _ _ ltac:(lia) ltac:(lia) EL) as EL1. apply put_other in EL1; [|lia].
    pose proof (put_here _ _ _ _ _ _ EL1 ltac:(lia)) as E.
    pose proof (on_less (l + 1) l2 (l + 2) l2 _ _ ltac:(lia) ltac:(lia) EL1) as EL2. apply put_other in EL2; [|lia].
    pose proof (on_less l l2 (l + 2) l2 _ _ ltac:(lia) ltac:(lia) EC) as EC2.
    destruct (F1 L C) as [X1 Y1]; [eapply glue_left; eauto|eapply glue_left; eauto|lia|].
    destruct (F2 L C) as [X2 Y2]; [eapply glue_right; eauto; lia|eapply glue_right; eauto; lia|lia|].
    split; [|eapply flow_app; eauto].
    apply (f_jump _ _ _ _ _ h); [auto|exact T|]. apply f_label; [auto|exact E|].
    eapply flow_app; [exact X1|]. apply f_label; [auto|exact T|]. eapply flow_app; [exact X2|].
    apply (f_step _ _ _ _ _ h); [lia|cbn [fine]; repeat split; try lia; rewrite E; do 2 f_equal; lia|]. apply f_nil. lia.
Qed.

(** A function.  Its number is that of its label. *)
Definition chunk (l : Z) (b : list ainstr) (c : Z) : list ainstr :=
  AJump l :: ALabel (l + 1) :: b ++ [AReturn c; ALabel l].
Lemma function_flows m k b B c l l2 K : 0 <= l -> 0 <= m -> 0 <= k -> 0 <= c ->
  piece (l + 1) m k b B (c + 1) (l + 2) l2 K ->
  l <= l2 /\
  (forall x, labels (B ++ chunk l b c) x = if (l <=? x) && (x <? l2) then 1 else 0) /\
  exists L C, forall L' C', on l l2 L L' -> on l l2 C C' ->
    flow L' C' (-1) m (B ++ chunk l b c) m /\ L' (l + 1) = (k, l + 1) /\ C' (l + 1) = K.
Proof.
  intros Hl Hm Hk Hc [P Q (L0 & C0 & F)]. split; [lia|]. split.
  - intros x. specialize (Q x). unfold chunk. spread_labels.
    destruct (Z.eqb_spec l x); destruct (Z.eqb_spec (l + 1) x);
      destruct (Z.leb_spec (l + 2) x); destruct (Z.ltb_spec x l2);
      destruct (Z.leb_spec l x); cbn [andb] in *; lia.
  - exists (put l (m, -1) (put (l + 1) (k, l + 1) L0)), (put (l + 1) K C0). intros L C EL EC.
    pose proof (put_here _ _ _ _ _ _ EL ltac:(lia)) as T.
    pose proof (on_less l l2 (l + 1) l2 _ _ ltac:(lia) ltac:(lia) EL) as EL1. apply put_other in EL1; [|lia].
    pose proof (put_here _ _ _ _ _ _ EL1 ltac:(lia)) as E.
    pose proof (on_less (l + 1) l2 (l + 2) l2 _ _ ltac:(lia) ltac:(lia) EL1) as EL2. apply put_other in EL2; [|lia].
    pose proof (put_here _ _ _ _ _ _ EC ltac:(lia)) as EK.
    pose proof (on_less l l2 (l + 2) l2 _ _ ltac:(lia) ltac:(lia) EC) as EC2. apply put_other in EC2; [|lia].
    destruct (F L C EL2 EC2 ltac:(lia)) as [X Y].
    split; [|split; assumption].
    eapply flow_app; [exact Y|]. unfold chunk. replace (b ++ [AReturn c; ALabel l]) with (b ++ AReturn c :: ALabel l :: []) by reflexivity.
    apply (f_function L C (-1) m l (l + 1) k b c); auto; [lia|]. apply f_nil; auto.
Qed.

(** The closure of a function. *)
Definition capture_in (b t n : Z) (c : Z) : Prop := if 0 <=? c then b <= c <= t else - (c + 1) < n.
Lemma piece_closure_main m h k b B c l l2 va ar cs : 0 <= m -> 0 <= l -> 0 <= h -> 0 <= c -> 0 <= ar -> k = ar + (if va : bool then 1 else 0) ->
  piece (l + 1) h k b B (c + 1) (l + 2) l2 (Z.of_nat (length cs)) ->
  Forall (fun x => x <= h) cs -> forall K, Forall (fun u => 0 <= u < K) (captured_uses (APushClosure va (l + 1) ar cs)) ->
  piece (-1) m h ((B ++ chunk l b c) ++ [APushClosure va (l + 1) ar cs]) [] (h + 1) l l2 K.
Proof.
  intros Hm Hl Hh Hc Ha Hk P F K U. destruct (function_flows h k b B c l l2 _ Hl Hh ltac:(destruct va; lia) Hc P) as (Q1 & Q2 & L0 & C0 & FF).
  split; [lia| |].
  - intros x. rewrite labels_app, labels_nil, Q2, labels_other by (intros; discriminate). lia.
  - exists L0, C0. intros L C EL EC KC. destruct (FF L C EL EC) as (X & Y1 & Y2). split; [|apply f_nil; auto].
    eapply flow_app; [exact X|]. eapply f_step; [auto| |apply f_nil; lia].
    cbn [fine]. split; [exists 1; auto|]. split; [constructor|]. split; [|split; [exact Ha|split; [exact F|split; [rewrite Y1, Hk; reflexivity|exact Y2]]]].
    eapply Forall_impl; [|exact U]. cbn beta. intros u R. lia.
Qed.
Lemma piece_closure_inner f m h k b B c l l2 va ar cs : 0 <= l -> 0 <= h -> 0 <= m -> 0 <= c -> 0 <= ar -> k = ar + (if va : bool then 1 else 0) ->
  piece (l + 1) m k b B (c + 1) (l + 2) l2 (Z.of_nat (length cs)) ->
  Forall (fun x => x <= h) cs -> forall K, Forall (fun u => 0 <= u < K) (captured_uses (APushClosure va (l + 1) ar cs)) ->
  piece f m h [APushClosure va (l + 1) ar cs] (B ++ chunk l b c) (h + 1) l l2 K.
Proof.
  intros Hl Hh Hm Hc Ha Hk P F K U. destruct (function_flows m k b B c l l2 _ Hl Hm ltac:(destruct va; lia) Hc P) as (Q1 & Q2 & L0 & C0 & FF).
  split; [lia| |].
  - intros x. rewrite Q2, labels_other by (intros; discriminate). lia.
  - exists L0, C0. intros L C EL EC KC. destruct (FF L C EL EC) as (X & Y1 & Y2). split; [|exact X].
    eapply f_step; [auto| |apply f_nil; lia].
    cbn [fine]. split; [exists 1; auto|]. split; [constructor|]. split; [|split; [exact Ha|split; [exact F|split; [rewrite Y1, Hk; reflexivity|exact Y2]]]].
    eapply Forall_impl; [|exact U]. cbn beta. intros u R. lia.
Qed.
