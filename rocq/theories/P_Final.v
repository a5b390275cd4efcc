(** What the correctness of compiled programs means for constant conditions, assignments, the order
    of operands, quote and list (C41, C42, C43, C49). *)
From Coq Require Import ZArith List Bool Lia Arith.
From Verif Require Import M_Base M_Trie M_Parser M_Heap M_Instr M_VM M_Symbol M_Asm M_Compile S_Heap S_VM S_Num S_Data S_Globals S_Types S_Asm S_Symbol S_Compile S_Run S_Program S_Order.
From Verif Require Import P_Num P_Compile P_Compile4 P_Sim P_Order P_Correct2.
Import ListNotations.
Open Scope Z_scope.
Open Scope list_scope.

(** * Constant conditions *)
Theorem literal_folds l ids host base next t v o : l <> LString [] -> in_step v -> at_pos v 1 o -> denotes ids (objects v) o (literal_value l) ->
  exists b v', literal_condition (literal_tree l) = Some b /\
    exec host base next (IBrnz t 1) v = (Ok (Continue (if b then PC (pc_code next) t else next)), v') /\ stack v' = tl (stack v).
Proof.
  intros N I A D. exists (literal_true l). rewrite literal_condition_tree by (destruct l as [| | |[|]]; [reflexivity..|congruence|reflexivity]).
  assert (truthy (objects v) o = Ok (literal_true l)) as T by (destruct l; inversion D; subst; try reflexivity; destruct b; reflexivity).
  destruct (exec_brnz host base next t o v _ I A T) as [v' [E [S _]]]. exists v'. auto.
Qed.

Lemma value_computes cfg pushpops short e y' code ids W f w s :
  callbacks_apart cfg -> built cfg pushpops short e y' code -> numbering y' ids -> assignments_apart ids e ->
  eval f e (State [] (fun x => W (ids x))) = Ok (w, s) ->
  computes ids code W (untouched ids e) w (globals_of s) (Z.to_nat (width [] e - 2)).
Proof.
  intros Hc B Hn Ha E. destruct (compiled_value cfg pushpops short e y' code ids W f w s Hc B Hn Ha E) as [W' [_ [N K]]]. exists N. exact K.
Qed.

(** Conditionals with constant conditions. *)
Theorem constant_if cfg pushpops short l x z y' code ids W f w s :
  callbacks_apart cfg -> built cfg pushpops short (EIf (ELit l) x z) y' code -> numbering y' ids -> assignments_apart ids (EIf (ELit l) x z) ->
  (forall b, truth (literal_value l) = Ok b -> eval f (if b then x else z) (State [] (fun x => W (ids x))) = Ok (w, s)) ->
  computes ids code W (untouched ids (EIf (ELit l) x z)) w (globals_of s) (Z.to_nat (width [] (EIf (ELit l) x z) - 2)).
Proof.
  intros Hc B Hn Ha E. eapply (value_computes _ _ _ _ _ _ _ _ (S f)); eauto.
  destruct f as [|f]; [exfalso; specialize (E _ (literal_truth l)); discriminate|].
  change (eval (S (S f)) (EIf (ELit l) x z) (State [] (fun x => W (ids x)))) with
    (t <- truth (literal_value l) ;; eval (S f) (if t : bool then x else z) (State [] (fun x => W (ids x)))).
  specialize (E _ (literal_truth l)). rewrite literal_truth. exact E.
Qed.
Theorem constant_when cfg pushpops short p l b y' code ids W f w s :
  callbacks_apart cfg -> built cfg pushpops short (EWhen p (ELit l) b) y' code -> numbering y' ids -> assignments_apart ids (EWhen p (ELit l) b) ->
  (forall t, truth (literal_value l) = Ok t ->
     if Bool.eqb t p then eval f (EScope b) (State [] (fun x => W (ids x))) = Ok (w, s) else w = VNil /\ s = State [] (fun x => W (ids x))) ->
  computes ids code W (untouched ids (EWhen p (ELit l) b)) w (globals_of s) (Z.to_nat (width [] (EWhen p (ELit l) b) - 2)).
Proof.
  intros Hc B Hn Ha E. specialize (E _ (literal_truth l)).
  assert (exists f', eval f' (EWhen p (ELit l) b) (State [] (fun x => W (ids x))) = Ok (w, s)) as [f' E'].
  { destruct (Bool.eqb (literal_true l) p) eqn:T.
    - exists (S f). destruct f as [|f]; [discriminate|].
      change (eval (S (S f)) (EWhen p (ELit l) b) (State [] (fun x => W (ids x)))) with
        (t <- truth (literal_value l) ;; if Bool.eqb t p then eval (S f) (EScope b) (State [] (fun x => W (ids x))) else Ok (VNil, State [] (fun x => W (ids x)))).
      rewrite literal_truth. unfold bind. rewrite T. exact E.
    - exists 2%nat. destruct E as [-> ->].
      change (eval 2 (EWhen p (ELit l) b) (State [] (fun x => W (ids x)))) with
        (t <- truth (literal_value l) ;; if Bool.eqb t p then eval 1 (EScope b) (State [] (fun x => W (ids x))) else Ok (VNil, State [] (fun x => W (ids x)))).
      rewrite literal_truth. unfold bind. rewrite T. reflexivity. }
  eapply value_computes; eauto.
Qed.

(** * Assignments *)
Theorem assigned_value cfg pushpops short x e form y' code ids W f w s : form = EGlobal x e \/ form = ESet x e ->
  callbacks_apart cfg -> built cfg pushpops short form y' code -> numbering y' ids -> assignments_apart ids form ->
  eval f e (State [] (fun x => W (ids x))) = Ok (w, s) -> env s = [] ->
  computes ids code W (untouched ids form) w (fun z => if bytes_dec x z then Some w else globals_of s z) (Z.to_nat (width [] form - 2)).
Proof.
  intros Hf Hc B Hn Ha E Es.
  assert (eval (S f) form (State [] (fun x => W (ids x))) = Ok (w, State [] (assign_global (globals_of s) x w))) as E'.
  { destruct s as [E0 G0]. cbn in Es. subst E0. destruct Hf as [-> | ->]; cbn [eval]; rewrite E; reflexivity. }
  pose proof (value_computes _ _ _ _ _ _ _ _ _ _ _ Hc B Hn Ha E') as K. exact K.
Qed.

(** * Order *)
Theorem in_order cfg pushpops short e y' code ids W f w s :
  callbacks_apart cfg -> built cfg pushpops short e y' code -> numbering y' ids -> assignments_apart ids e -> orderly e = true ->
  strict f e (State [] (fun x => W (ids x))) = Ok (w, s) ->
  computes ids code W (untouched ids e) w (globals_of s) (Z.to_nat (width [] e - 2)).
Proof.
  intros Hc B Hn Ha O E. eapply value_computes; eauto. apply (proj1 (strict_same f) e _ O). exact E.
Qed.

Theorem orderly_results f e s r : orderly e = true -> eval f e s = Ok r <-> strict f e s = Ok r.
Proof. intros O. apply (proj1 (strict_same f) e s O). Qed.

(** * Quote and list *)
Lemma computes_all ids code W (keep : Z -> Prop) w G extra : (forall k, keep k) -> computes ids code W keep w G extra -> computes ids code W (fun _ => True) w G extra.
Proof.
  intros Hk [N K]. exists N. intros host v I R. destruct (K host v I R) as [[F [v' [X Y]]]|Z]; [left|right; exact Z].
  exists F, v'. split; [exact X|]. destruct Y as [Y1 Y2 Y3 Y4 Y5 Y6 Y7 Y8]. constructor; auto.
  intros p Op. apply Y8. clear -Op Hk. induction Op as [o p A B|p A|ip c p A|k n p _ A B|p o q A IH B C].
  - eapply owned_stack; eassumption.
  - eapply owned_ustack; eassumption.
  - eapply owned_frame; eassumption.
  - eapply owned_global; [apply Hk|eassumption..].
  - eapply owned_step; eassumption.
Qed.
Theorem quoted_tree cfg pushpops short d y' code ids W :
  callbacks_apart cfg -> built cfg pushpops short (EQuote d) y' code -> numbering y' ids ->
  computes ids code W (fun _ => True) (datum_value d) (fun x => W (ids x)) (Z.to_nat (width [] (EQuote d) - 2)).
Proof.
  intros Hc B Hn. apply (computes_all _ _ _ (untouched ids (EQuote d))); [intros k x []|].
  exact (value_computes cfg pushpops short (EQuote d) y' code ids W 1 (datum_value d) (State [] (fun x => W (ids x))) Hc B Hn
    (fun x i F => match F with end) eq_refl).
Qed.

(** The tree written with list: [(list 1 (list 'a "s"))] for [(1 (a "s"))]. *)
Lemma fold_list f es vs s : Forall2 (fun e v => eval f e s = Ok (v, s)) es vs ->
  fold_right (fun e r => ' (w, s) <- r ;; ' (v, s) <- eval f e s ;; Ok (VPair v w, s)) (Ok (VNil, s)) es = Ok (fold_right VPair VNil vs, s).
Proof. induction 1 as [|e v es vs E F IH]; [reflexivity|]. cbn [fold_right]. rewrite IH. cbn [bind]. rewrite E. reflexivity. Qed.
Fixpoint deep (d : datum) : nat := match d with DList ds => S (fold_right (fun d n => Nat.max (deep d) n) O ds) | _ => 1%nat end.
Lemma listing_eval : forall f d s, (deep d <= f)%nat -> eval f (listing d) s = Ok (datum_value d, s).
Proof.
  induction f as [|f IH]; intros d s L; [destruct d; cbn in L; lia|]. destruct d as [l|x|ds]; try reflexivity.
  cbn [listing eval datum_value]. cbn [deep] in L. apply le_S_n in L.
  rewrite (fold_list f (map listing ds) (map datum_value ds)).
  - f_equal. f_equal. clear. induction ds; [reflexivity|]. cbn [map fold_right]. congruence.
  - induction ds as [|d ds IHd]; [constructor|]. cbn [fold_right] in L. constructor; [apply IH; lia|apply IHd; lia].
Qed.
Lemma listing_plain : forall f d, (deep d <= f)%nat -> targets (listing d) = [] /\ forall loc n, assigned loc n (listing d) = [].
Proof.
  induction f as [|f IH]; intros d L; [destruct d; cbn in L; lia|]. destruct d as [l|x|ds]; try (split; reflexivity).
  cbn [deep] in L. apply le_S_n in L. cbn [listing targets]. induction ds as [|d ds IHd]; [split; reflexivity|]. cbn [fold_right] in L.
  destruct (IH d) as [A B]; [lia|]. destruct IHd as [C D]; [lia|]. split; [cbn [map flat_map]; rewrite A; exact C|].
  intros loc n. cbn [map assigned]. rewrite B, app_nil_r. apply D.
Qed.
Theorem listed_tree cfg pushpops short d y' code ids W :
  callbacks_apart cfg -> built cfg pushpops short (listing d) y' code -> numbering y' ids ->
  computes ids code W (fun _ => True) (datum_value d) (fun x => W (ids x)) (Z.to_nat (width [] (listing d) - 2)).
Proof.
  intros Hc B Hn. destruct (listing_plain _ d (le_n _)) as [T A].
  apply (computes_all _ _ _ (untouched ids (listing d))); [intros k x; rewrite T; intros []|].
  refine (value_computes cfg pushpops short (listing d) y' code ids W (deep d) (datum_value d) (State [] (fun x => W (ids x))) Hc B Hn
    _ (listing_eval _ _ _ (le_n _))).
  intros x i. rewrite A. intros [].
Qed.
