(** What the instructions of core programs do to the height of the machine's stack (C40). *)
From Coq Require Import ZArith List Bool Lia Arith ZifyBool ZifyNat.
From Verif Require Import M_Base M_Heap M_Instr M_VM M_Asm S_Heap S_VM S_Asm S_Stack P_Sort P_VM P_Exec.
Import ListNotations.
Open Scope Z_scope.

Section Lens.
  Ltac leaf := unfold lens_kept; simpl; rewrite ?list_set_length; auto.
  Ltac go := repeat first [ solve [auto with lens] | pres_step lens_kept lens_refl lens_trans leaf ].
  Lemma l_unbox p v : pres_at lens_kept (unbox p) v. Proof. unfold unbox. go. Qed.
  Lemma l_box o v : pres_at lens_kept (box o) v. Proof. unfold box. go. Qed.
  Lemma l_pointee o v : pres_at lens_kept (pointee o) v. Proof. unfold pointee. go. Qed.
  Hint Resolve l_unbox l_box l_pointee : lens.
  Lemma l_car o v : pres_at lens_kept (car_op o) v. Proof. unfold car_op. go. Qed.
  Lemma l_cdr o v : pres_at lens_kept (cdr_op o) v. Proof. unfold cdr_op. go. Qed.
  Lemma l_new_string s v : pres_at lens_kept (new_string s) v. Proof. unfold new_string. go. Qed.
  Lemma l_composite_get p v : pres_at lens_kept (composite_get p) v. Proof. unfold composite_get. go. Qed.
  Hint Resolve l_new_string l_composite_get : lens.
  Lemma l_typeof o v : pres_at lens_kept (typeof_op o) v. Proof. unfold typeof_op. go. Qed.
  Lemma l_composite b o v : pres_at lens_kept (composite_op b o) v. Proof. unfold composite_op. go. Qed.
  Lemma l_make_string o v : pres_at lens_kept (make_string_op o) v. Proof. unfold make_string_op. go. Qed.
  Lemma l_get_elt x y v : pres_at lens_kept (get_elt_op x y) v. Proof. unfold get_elt_op. go. Qed.
  Lemma l_set_car x y v : pres_at lens_kept (set_car_op x y) v. Proof. unfold set_car_op. go. Qed.
  Lemma l_set_cdr x y v : pres_at lens_kept (set_cdr_op x y) v. Proof. unfold set_cdr_op. go. Qed.
  Lemma l_set_composite b x y v : pres_at lens_kept (set_composite_op b x y) v. Proof. unfold set_composite_op. go. Qed.
  Lemma l_concat x y v : pres_at lens_kept (concat_op x y) v. Proof. unfold concat_op. go. Qed.
  Lemma l_global_set p k v : pres_at lens_kept (global_set p k) v. Proof. unfold global_set. go. Qed.
  Lemma l_global_get k v : pres_at lens_kept (global_get k) v. Proof. unfold global_get. go. Qed.
End Lens.
#[export] Hint Resolve l_unbox l_box l_pointee l_car l_cdr l_new_string l_composite_get l_typeof l_composite l_make_string l_get_elt
  l_set_car l_set_cdr l_set_composite l_concat l_global_set l_global_get : lens.

Definition grows (k : Z) (v v' : vm) : Prop := zlen (stack v') = zlen (stack v) + k.
Lemma lens_grows v v' : lens_kept v v' -> grows 0 v v'.
Proof. unfold lens_kept, grows, zlen. lia. Qed.
Lemma push_grows o v r v' : stack_push o v = (Ok r, v') -> grows 1 v v'.
Proof. unfold stack_push, mmod, mbind, mget, mset. intros E. injection E as <- <-. unfold grows, zlen. cbn. lia. Qed.
Lemma grows_then j k u v w : grows j u v -> grows k v w -> grows (j + k) u w.
Proof. unfold grows. lia. Qed.
Lemma kept_push {A} (m : M A) (f : A -> object) v r v' : (forall v, pres_at lens_kept m v) ->
  (x <~ m ;; stack_push (f x)) v = (Ok r, v') -> grows 1 v v'.
Proof.
  intros K E. inv_bind E x v1 E1. apply (pres_eq _ _ _ _ _ (K v)) in E1. apply lens_grows in E1. apply push_grows in E.
  exact (grows_then 0 1 _ _ _ E1 E).
Qed.
Lemma lift_kept {A} (m : res A) v : pres_at lens_kept (mlift m) v.
Proof. unfold pres_at, mlift. split; reflexivity. Qed.

Lemma un_grows u x v r v' : un_op u x v = (Ok r, v') -> grows 1 v v'.
Proof.
  unfold un_op. intros E. inv_bind E w v0 E0. injection E0 as <- <-. inv_bind E o v1 E1. apply push_grows in E.
  replace 1 with (0 + 1) by lia. eapply grows_then; [|exact E]. apply lens_grows.
  destruct u; try (lens E1; assumption); try (eapply pres_eq; [apply lift_kept|exact E1]).
  destruct x; try discriminate. injection E1 as <- <-. apply lens_refl.
Qed.
Lemma cons_grows x y v r v' : cons_op x y v = (Ok r, v') -> grows 1 v v'.
Proof.
  unfold cons_op. intros E. inv_bind E c v1 E1. lens E1. inv_bind E c2 v2 E2. apply push_grows in E2.
  inv_bind E c3 v3 E3. lens E3. inv_bind E c4 v4 E4. lens E4. inv_bind E c5 v5 E5. lens E5. inv_bind E c6 v6 E6. lens E6. lens E.
  unfold grows, lens_kept, zlen in *. lia.
Qed.
Lemma make_vector_grows x y v r v' : make_vector_op x y v = (Ok r, v') -> grows 1 v v'.
Proof.
  unfold make_vector_op. intros E. destruct x; try discriminate. destruct (n <? 0); [discriminate|].
  inv_bind E p v1 E1. lens E1. inv_bind E a v2 E2. injection E2 as <- <-.
  inv_bind E q v3 E3. lens E3. inv_bind E b v4 E4.
  assert (lens_kept v3 v4) as L4.
  { destruct (n =? 0); [injection E4 as <- <-; apply lens_refl|]. eapply pres_eq; [|exact E4]; auto with lens. }
  inv_bind E c v5 E5. injection E5 as <- <-. inv_bind E d v6 E6. lens E6. lens E.
  unfold grows, zlen, lens_kept in *. simpl in *. lia.
Qed.
Lemma bin_grows b x y v r v' : bin_op b x y v = (Ok r, v') -> grows 1 v v'.
Proof.
  unfold bin_op. intros E. inv_bind E w v0 E0. injection E0 as <- <-.
  destruct b; try (eapply cons_grows; exact E); try (eapply make_vector_grows; exact E);
    inv_bind E o v1 E1; apply push_grows in E; replace 1 with (0 + 1) by lia; (eapply grows_then; [|exact E]); apply lens_grows;
    try (lens E1; assumption); (eapply pres_eq; [apply lift_kept|exact E1]).
Qed.
Lemma string_grows s v r v' : push_string_op s v = (Ok r, v') -> grows 1 v v'.
Proof.
  unfold push_string_op. destruct (new_string s v) as [[o|e| |] v1] eqn:E1; intros E; try discriminate;
    lens E1; apply push_grows in E; exact (grows_then 0 1 _ _ _ (lens_grows _ _ L) E).
Qed.
Lemma pops_grows n v r v' : 0 <= n -> stack_pop_multiple n v = (Ok r, v') -> grows (- n) v v'.
Proof.
  intros N. unfold stack_pop_multiple. intros E. inv_bind E w v0 E0. injection E0 as <- <-.
  destruct (_ <? n); [discriminate|]. inv_bind E u v1 E1. injection E1 as <- <-. destruct (Z.ltb_spec (zlen (stack v)) n); [discriminate|].
  injection E as <- <-. unfold grows, zlen in *. cbn. rewrite skipn_length. lia.
Qed.

(** ** One instruction *)
Definition effect (a : ainstr) : option Z :=
  match a with
  | AJump _ => Some 0
  | ABrnz _ n => Some (- n)
  | AFuncall _ _ => None
  | _ => net a
  end.
Lemma go_inv (m : M unit) next v c v' : (m ;;; mret (Continue next)) v = (Ok c, v') -> c = Continue next /\ exists r, m v = (Ok r, v').
Proof. intros E. inv_bind E r v1 E1. injection E as <- <-. eauto. Qed.
Theorem exec_effect host base next strip addr a i d v c v' :
  meaning strip addr a = Some i -> effect a = Some d -> Forall (fun n => 0 <= n) (operands a) -> (forall l n, a = ABrnz l n -> 0 <= n) ->
  exec host base next i v = (Ok c, v') ->
  zlen (stack v') = zlen (stack v) + d /\
  (c = Continue next /\ (forall l, a <> AJump l) \/ exists l, uses a = Some l /\ c = Continue (PC (pc_code next) (addr l))).
Proof.
  intros M N O Ob E.
  destruct a; try discriminate N; cbn in N; injection N as <-; cbn in M; try discriminate M; try (injection M as <-); cbn [exec] in E;
    try (apply go_inv in E as [-> [r E]]; split; [|left; split; [reflexivity|discriminate]]).
  - eapply string_grows, E.
  - eapply push_grows, E.
  - eapply push_grows, E.
  - eapply push_grows, E.
  - eapply kept_push with (f := fun x => x); [|exact E]. auto with lens.
  - destruct strip; cbn [exec] in E; apply go_inv in E as [-> [r E]]; (split; [|left; split; [reflexivity|discriminate]]).
    + eapply push_grows, E.
    + eapply (kept_push (alloc _) (fun p => OSymbol _ p)); [|exact E]. auto with lens.
  - inv_bind E p v1 E1. lens E1. inv_bind E o v2 E2. lens E2. apply push_grows in E. unfold lens_kept, grows, zlen in *. lia.
  - inv_bind E w v0 E0. injection E0 as <- <-. inv_bind E o v1 E1. apply (pres_eq _ _ _ _ _ (lift_kept _ _)) in E1.
    inv_bind E p v2 E2. lens E2. lens E. unfold lens_kept, zlen in *. lia.
  - injection E as <- <-. split; [lia|]. right. exists label. auto.
  - inv_bind E o v1 E1. lens E1. inv_bind E u v2 E2. apply pops_grows in E2; [|eapply Ob; reflexivity].
    inv_bind E w v0 E0. injection E0 as <- <-. inv_bind E t v3 E3. unfold mlift in E3. injection E3 as E3 <-. injection E as <- <-.
    split; [unfold lens_kept, grows, zlen in *; lia|]. destruct t; [right; exists label; auto|left; split; [reflexivity|discriminate]].
  - inv_bind E o v1 E1. lens E1. inv_bind E w v0 E0. injection E0 as <- <-. inv_bind E s v2 E2. unfold mlift in E2. injection E2 as E2 <-.
    injection E as <- <-. cbn. apply abs_set_length in E2. unfold lens_kept, zlen in *. lia.
  - inv_bind E x v1 E1. lens E1. apply un_grows in E. unfold lens_kept, grows, zlen in *. lia.
  - inv_bind E x v1 E1. lens E1. inv_bind E y v2 E2. lens E2. apply bin_grows in E. unfold lens_kept, grows, zlen in *. lia.
  - apply pops_grows in E; [|inversion O; assumption]. exact E.
  - eapply push_grows, E.
Qed.
