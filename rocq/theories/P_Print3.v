(** The printer of objects ends for finite objects and never goes wrong (C75). *)
From Coq Require Import ZArith List Bool Lia ZifyBool ZifyNat.
From Verif Require Import M_Base M_Heap M_Instr M_VM M_Parser M_Print S_VM S_Types S_Print P_Print P_Print2.
Import ListNotations.
Open Scope Z_scope.
Open Scope list_scope.

Lemma placed_typed v o : typed v -> placed v o -> well_typed v o.
Proof. intros T [H|[p [L H]]]; [exact (proj2 (ty_stack _ _ T _ H))|exact (ty_objects _ _ T p o L (fun f => f) H)]. Qed.
Lemma points_placed v K p : points v K p -> exists o, holds v p o /\ placed v o /\ K o.
Proof. intros [L [o [N H]]]. exists o. split; [exact N|]. split; [right; exists p; split; assumption|exact H]. Qed.
Lemma opoints_placed v K p o : opoints v K (Some p) -> holds v p o -> placed v o.
Proof. intros H N. destruct (points_placed _ _ _ (H p eq_refl)) as [o' [N' [P _]]]. unfold holds in *. congruence. Qed.
Lemma points_holds_placed v K p o : points v K p -> holds v p o -> placed v o.
Proof. intros H N. destruct (points_placed _ _ _ H) as [o' [N' [P _]]]. unfold holds in *. congruence. Qed.
Lemma buffer_placed v (K : optr -> Prop) l len k p o : (forall q, K (Some q) -> exists K', points v K' q) -> buffer K (Some l) len -> Z.of_nat k < len mod 2 ^ 64 ->
  nth_error l k = Some (Cell (Some p)) -> holds v p o -> placed v o.
Proof.
  intros HK [[L U] B] H N P. unfold max_size in U. rewrite Z.mod_small in H by lia. destruct (B ltac:(lia)) as [l' [E F]]. injection E as <-. destruct (F k H) as [q [N' Q]].
  rewrite N in N'. injection N' as <-. destruct (HK _ Q) as [K' H']. exact (points_holds_placed _ _ _ _ H' P).
Qed.

Lemma part_placed v o o' : typed v -> part v o o' -> placed v o -> placed v o'.
Proof.
  intros T H. induction H; intros P; pose proof (placed_typed _ _ T P) as W; cbn [well_typed] in W;
    try (eapply opoints_placed; [|eassumption]; first [exact W|exact (proj1 W)|exact (proj2 W)]).
  - left. apply in_rev. destruct H as [_ H]. exact (nth_error_In _ _ H).
  - destruct W as [q [E W]]. injection E as <-. exact (points_holds_placed _ _ _ _ W H).
  - destruct W as [W _]. eapply buffer_placed; [|exact W|eassumption|eassumption|eassumption]. intros q Q. exists is_upvalue. exact (Q q eq_refl).
  - destruct W as [_ [_ [q [E W]]]]. injection E as <-. apply IHpart. exact (points_holds_placed _ _ _ _ W H).
  - destruct W as [_ W]. eapply buffer_placed; [|exact W|eassumption|eassumption|eassumption]. intros q [q' [E Q]]. injection E as <-. eauto.
  - destruct W as [_ W]. apply IHpart. exact (opoints_placed _ _ _ _ W H).
  - destruct W as [q [E W]]. injection E as <-. apply IHpart. exact (points_holds_placed _ _ _ _ W H).
Qed.

(** An answer, or ([b]) no end. *)
Definition good (b : bool) {A} (r : res A) : Prop := match r with Ok _ => True | NoFuel => b = true | _ => False end.
Lemma good_bind b {A B} (m : res A) (f : A -> res B) : good b m -> (forall a, m = Ok a -> good b (f a)) -> good b (bind m f).
Proof. destruct m; cbn [bind good]; auto; contradiction. Qed.
Lemma good_ok b {A} (m : res A) : (exists a, m = Ok a) -> good b m.
Proof. intros [a ->]. exact I. Qed.

Section Total.
Context (b : bool) (v : vm) (rec : place -> object -> res (list Z)).
Hypothesis Ht : typed v.
Hypothesis Hc : captures_ok v.
Ltac num := first [apply good_ok, size_ok|apply good_ok, ptrdiff_ok|apply good_ok, uint8_ok].
Lemma good_at p : (exists o, holds v p o /\ forall pl, good b (rec pl o)) -> good b (print_at rec v p).
Proof. intros [o [H G]]. unfold print_at. unfold holds in H. rewrite H. apply G. Qed.
Lemma good_cells n : forall l, (forall k, (k < n)%nat -> exists p o, nth_error l k = Some (Cell (Some p)) /\ holds v p o /\ forall pl, good b (rec pl o)) ->
  good b (print_cells (print_at rec v) l n).
Proof.
  induction n as [|n IH]; intros l H; [exact I|]. cbn [print_cells]. destruct (H O ltac:(lia)) as [p [o [N [P G]]]]. destruct l as [|c l]; [discriminate|]. injection N as ->.
  apply good_bind; [apply good_at; eauto|]. intros t _. apply good_bind; [apply IH; intros k K; exact (H (S k) ltac:(lia))|]. intros; exact I.
Qed.
Lemma good_string s : good b (print_internalString s).
Proof. apply good_bind; [num|]. intros; exact I. Qed.
Lemma good_text n p : points v (is_text n) p -> exists s, internalString_at (objects v) p = Ok s.
Proof. intros [_ [o [N K]]]. unfold internalString_at. rewrite N. destruct o; try contradiction. eauto. Qed.
Lemma part_good o : placed v o -> (forall o', part v o o' -> placed v o' -> forall pl, good b (rec pl o')) -> forall o', part v o o' -> forall pl, good b (rec pl o').
Proof. intros P H o' Q. apply H; [exact Q|]. exact (part_placed _ _ _ Ht Q P). Qed.
Lemma good_null p : (forall q, p = Some q -> exists o, holds v q o /\ forall pl, good b (rec pl o)) -> good b (print_or_null rec v p).
Proof. intros H. destruct p; [|exact I]. apply good_at, H. reflexivity. Qed.

(** The loops over the parts of vectors and closures. *)
Lemma good_elements p cs len ini : live v p -> holds v p (OInternalVector cs len ini) -> (forall o', part v (OInternalVector cs len ini) o' -> forall pl, good b (rec pl o')) ->
  good b (print_internalVector rec v cs len ini).
Proof.
  intros L N H. pose proof (ty_objects _ _ Ht p _ L (fun f => f) N) as W. cbn [well_typed] in W. destruct W as [-> [[L0 U] B]]. unfold max_size in U.
  unfold print_internalVector. apply good_bind; [|intros; exact I]. apply good_bind; [num|]. intros; apply good_bind; [|intros; exact I].
  unfold print_buffer, as_size. rewrite Z.mod_small by lia. destruct (Z.eq_dec len 0) as [->|Z0]; [destruct cs; exact I|].
  destruct (B ltac:(lia)) as [l [-> F]]. apply good_cells. intros k K. destruct (F k ltac:(lia)) as [q' [N' [q [-> [Lq [o [Nq _]]]]]]]. exists q, o. split; [exact N'|].
  split; [exact Nq|]. apply H. refine (part_element _ _ _ _ _ _ _ N' Nq). rewrite Z.mod_small; lia.
Qed.
Lemma good_upvalues p i l len : live v p -> holds v p (OUpvalueArray i (Some l) len) -> (forall o', part v (OUpvalueArray i (Some l) len) o' -> forall pl, good b (rec pl o')) ->
  good b (print_cells (print_at rec v) l (Z.to_nat (as_size len))).
Proof.
  intros L N H. pose proof (ty_objects _ _ Ht p _ L (fun f => f) N) as W. cbn [well_typed] in W. destruct W as [[[L0 U] B] _]. unfold max_size in U.
  unfold as_size. rewrite Z.mod_small by lia. destruct (Z.eq_dec len 0) as [->|Z0]; [exact I|].
  destruct (B ltac:(lia)) as [l' [E F]]. injection E as <-. apply good_cells. intros k K. destruct (F k ltac:(lia)) as [q' [N' O]].
  destruct q' as [q|]; [|exfalso; exact (proj2 (Hc p L) _ _ _ N (nth_error_In _ _ N'))]. destruct (O q eq_refl) as [Lq [o [Nq _]]]. exists q, o. split; [exact N'|].
  split; [exact Nq|]. apply H. refine (part_upvalue _ _ _ _ _ _ _ _ N' Nq). rewrite Z.mod_small; lia.
Qed.
Lemma good_instance p ty x g : live v p -> holds v p (OInternalComposite ty x g) -> (forall o', part v (OInternalComposite ty x g) o' -> forall pl, good b (rec pl o')) ->
  good b (print_internalComposite rec v ty x g).
Proof.
  intros L N H. pose proof (ty_objects _ _ Ht p _ L (fun f => f) N) as [X F].
  unfold print_internalComposite. apply good_bind; [num|]. intros ? ?. apply good_bind; [|intros ? ?; apply good_bind; [|intros; exact I]]; apply good_null; intros q ->.
  - destruct (X q eq_refl) as [_ [o [Nq _]]]. exists o. split; [exact Nq|]. apply H. constructor. exact Nq.
  - destruct (F q eq_refl) as [_ [o [Nq _]]]. exists o. split; [exact Nq|]. apply H. constructor. exact Nq.
Qed.

Lemma placed_kind o : placed v o -> ~ first_class o -> exists p, live v p /\ holds v p o.
Proof. intros [H|H] N; [|exact H]. destruct (ty_stack _ _ Ht _ H). contradiction. Qed.

Lemma good_kind f o : placed v o -> (forall o', part v o o' -> forall pl, good b (rec pl o')) -> (forall u, o = OUpvalue u -> good b (print_upvalue rec v f u)) ->
  good b (print_kind rec v f o).
Proof.
  intros P H HU. pose proof (placed_typed _ _ Ht P) as W. destruct o; cbn [print_kind well_typed] in *; try exact I; try (apply good_bind; [num|intros; exact I]); auto.
  - unfold print_string. destruct s as [p|]; [|exact I]. destruct W as [_ [_ W]]. destruct (good_text _ _ W) as [s ->]. cbn [bind]. apply good_bind; [apply good_string|]. intros ? ?.
    apply good_bind; [num|]. intros ? ?. apply good_bind; [num|]. intros; exact I.
  - unfold print_list. apply good_bind; [|intros; exact I]. apply good_null. intros q ->. destruct (W q eq_refl) as [_ [o [Nq _]]]. exists o. split; [exact Nq|]. apply H. constructor. exact Nq.
  - unfold print_symbol. apply good_bind; [|intros; apply good_bind; [num|intros; exact I]]. destruct s as [p|]; [|exact I]. destruct (good_text _ _ (proj2 W p eq_refl)) as [s ->]. cbn [bind].
    apply good_bind; [apply good_string|intros; exact I].
  - destruct W as [_ [[c [-> [_ [oc [Nc Kc]]]]] [p [-> [Lp [o [N K]]]]]]]. unfold print_closure. apply good_bind; [num|]. intros ? ?.
    apply good_bind; [|intros ? ?; apply good_bind; [|intros ? ?; apply good_bind; [num|intros; exact I]]].
    + cbn [print_closure_code]. rewrite Nc. destruct oc; try contradiction. apply good_bind; [num|intros; exact I].
    + cbn [print_closure_upvalues]. rewrite N. destruct o; try contradiction. apply good_bind; [num|]. intros ? ?. apply good_bind; [|intros; exact I]. destruct upvalues; [|exact I].
      eapply good_upvalues; [exact Lp|exact N|]. intros o' Q. apply H. eapply part_closure; [exact N|exact Q].
  - unfold print_vector. destruct v0 as [p|]; [|exact I]. destruct (proj2 W p eq_refl) as [Lp [o [N K]]]. rewrite N. destruct o; try contradiction.
    apply good_bind; [|intros; apply good_bind; [num|intros; exact I]]. eapply good_elements; [exact Lp|exact N|]. intros o' Q. apply H. eapply part_vector; [exact N|exact Q].
  - unfold print_composite. destruct W as [p [-> [Lp [o [N K]]]]]. rewrite N. destruct o; try contradiction.
    apply good_bind; [|intros; exact I]. eapply good_instance; [exact Lp|exact N|]. intros o' Q. apply H. eapply part_composite; [exact N|exact Q].
  - unfold print_cons. destruct W as [A D]. apply good_bind; [|intros ? ?; apply good_bind; [|intros; exact I]]; apply good_null; intros q ->.
    + destruct (A q eq_refl) as [_ [o [Nq _]]]. exists o. split; [exact Nq|]. apply H. constructor. exact Nq.
    + destruct (D q eq_refl) as [_ [o [Nq _]]]. exists o. split; [exact Nq|]. apply H. constructor. exact Nq.
  - destruct (placed_kind _ P (fun f => f)) as [p [L N]]. unfold print_upvalueArray. apply good_bind; [num|]. intros ? ?. apply good_bind; [|intros; exact I]. unfold print_buffer.
    destruct upvalues as [l|]; [exact (good_upvalues _ _ _ _ L N H)|]. destruct W as [[[L0 U] B] _]. unfold max_size in U. destruct (Z.eq_dec len 0) as [->|Z0]; [exact I|].
    destruct (B ltac:(lia)) as [l [E _]]. discriminate.
  - destruct (placed_kind _ P (fun f => f)) as [p [L N]]. exact (good_elements _ _ _ _ L N H).
  - destruct (placed_kind _ P (fun f => f)) as [p [L N]]. exact (good_instance _ _ _ _ L N H).
Qed.
End Total.

(** * Never wrong *)
Lemma chase_placed v f : typed v -> forall u n e, placed v (OUpvalue u) -> chase f (objects v) u = Ok (n, e) -> placed v (OUpvalue e).
Proof.
  intros T. induction f as [|f IH]; intros u n e P C; [discriminate|]. cbn [chase] in C. destruct u as [i|p|[p|]]; try (injection C as <- <-; exact P).
  destruct (nth_error (objects v) p) as [o|] eqn:N; [|discriminate]. destruct o; try discriminate. apply bind_ok in C as [[m w] [C E]]. injection E as <- <-.
  refine (IH _ _ _ _ C). exact (part_placed v _ _ T (part_outer v p _ N) P).
Qed.
Lemma chase_good v f : typed v -> forall u, placed v (OUpvalue u) -> good true (chase f (objects v) u).
Proof.
  intros T. induction f as [|f IH]; intros u P; [reflexivity|]. cbn [chase]. destruct u as [i|p|[p|]]; try exact I.
  pose proof (placed_typed _ _ T P) as W. destruct (W p eq_refl) as [L [o [N K]]]. rewrite N. destruct o as [ | | | | | | | | | | | | | |w| | | | |]; try contradiction.
  apply good_bind; [|intros [m e] _; exact I]. apply IH. exact (part_placed v _ _ T (part_outer v p _ N) P).
Qed.
Lemma captured_good b v rec u : typed v -> captures_ok v -> placed v (OUpvalue u) -> (forall o, part v (OUpvalue u) o -> forall pl, good b (rec pl o)) -> good b (print_captured rec v u).
Proof.
  intros T C P H. destruct (placed_kind v T _ P (fun f => f)) as [p [L N]]. pose proof (placed_typed _ _ T P) as W. destruct u as [i|q|q]; cbn [print_captured]; [| |exact I].
  - destruct (proj1 (C p L) i N) as [o O]. rewrite (on_stack_raw _ _ _ O). cbn [bind]. apply H. constructor. exact O.
  - destruct W as [q' [-> [Lq [o [Nq K]]]]]. apply good_at. exists o. split; [exact Nq|]. apply H. constructor. exact Nq.
Qed.
Theorem object_good used v f : typed v -> captures_ok v -> forall pl o, placed v o -> good true (print_object f used v pl o).
Proof.
  intros T C. induction f as [|f IH]; intros pl o P; [reflexivity|]. cbn [print_object]. apply good_bind; [|intros; exact I]. apply good_kind; try assumption.
  - intros o' Q pl'. apply IH. exact (part_placed _ _ _ T Q P).
  - intros u ->. unfold print_upvalue. apply good_bind; [apply chase_good; assumption|]. intros [n e] E. apply good_bind; [|intros; exact I].
    pose proof (chase_placed v f T _ _ _ P E) as Pe. apply captured_good; try assumption. intros o Q pl'. apply IH. exact (part_placed _ _ _ T Q Pe).
Qed.

(** * An end for finite objects *)
Definition one (v : vm) (p : optr) : list object := match p with Some q => match nth_error (objects v) q with Some o => [o] | None => [] end | None => [] end.
Definition all (v : vm) (cs : option (list cell)) (len : Z) : list object :=
  match cs with Some l => flat_map (fun c => match c with Cell p => one v p | _ => [] end) (firstn (Z.to_nat (len mod 2 ^ 64)) l) | None => [] end.
Definition inner (v : vm) (o : object) : list object :=
  match o with
  | OList l => one v l
  | OCons a d => one v a ++ one v d
  | OUpvalue (UpStack i) => if i <? 0 then [] else match nth_error (rev (stack v)) (Z.to_nat i) with Some o => [o] | None => [] end
  | OUpvalue (UpObject p) | OUpvalue (UpUpvalue p) => one v p
  | OUpvalueArray _ cs len | OInternalVector cs len true => all v cs len
  | OInternalComposite _ x g => one v x ++ one v g
  | _ => []
  end.
Definition parts (v : vm) (o : object) : list object :=
  match o with
  | OClosure _ _ p _ _ => flat_map (fun q => match q with OUpvalueArray _ _ _ => inner v q | _ => [] end) (one v p)
  | OVector p _ => flat_map (fun q => match q with OInternalVector _ _ _ => inner v q | _ => [] end) (one v p)
  | OComposite p => flat_map (fun q => match q with OInternalComposite _ _ _ => inner v q | _ => [] end) (one v p)
  | _ => inner v o
  end.
Lemma one_in v p o : holds v p o -> In o (one v (Some p)).
Proof. unfold holds, one. intros ->. left. reflexivity. Qed.
Lemma in_one v p o : In o (one v p) -> exists q, p = Some q /\ holds v q o.
Proof. unfold one, holds. destruct p as [q|]; [|intros []]. destruct (nth_error (objects v) q) as [x|] eqn:N; [|intros []]. intros [<-|[]]. eauto. Qed.
Lemma firstn_in {A} (l : list A) n k x : (k < n)%nat -> nth_error l k = Some x -> In x (firstn n l).
Proof. revert n k. induction l as [|a l IH]; intros [|n] [|k] L N; try discriminate; try lia; cbn in *; [left; congruence|right; apply (IH n k); [lia|exact N]]. Qed.
Lemma in_firstn {A} (l : list A) n x : In x (firstn n l) -> exists k, (k < n)%nat /\ nth_error l k = Some x.
Proof.
  revert n. induction l as [|a l IH]; intros [|n] H; cbn in H; try contradiction. destruct H as [->|H]; [exists O; split; [lia|reflexivity]|].
  destruct (IH _ H) as [k [L N]]. exists (S k). split; [lia|exact N].
Qed.
Lemma all_in v l len k p o : Z.of_nat k < len mod 2 ^ 64 -> nth_error l k = Some (Cell (Some p)) -> holds v p o -> In o (all v (Some l) len).
Proof. intros L N H. unfold all. apply in_flat_map. exists (Cell (Some p)). split; [|apply one_in, H]. refine (firstn_in _ _ k _ _ N). lia. Qed.
Lemma in_all v cs len o : In o (all v cs len) -> exists l k p, cs = Some l /\ Z.of_nat k < len mod 2 ^ 64 /\ nth_error l k = Some (Cell (Some p)) /\ holds v p o.
Proof.
  unfold all. destruct cs as [l|]; [|intros []]. intros H. apply in_flat_map in H as [c [H O]]. apply in_firstn in H as [k [L N]]. destruct c as [|p]; [destruct O|].
  apply in_one in O as [q [-> O]]. exists l, k, q. repeat split; try assumption. lia.
Qed.
Lemma part_in v o o' : part v o o' -> In o' (parts v o).
Proof.
  intros H. induction H; cbn [parts inner]; auto using one_in; try (apply in_app_iff; auto using one_in; fail); try (eapply all_in; eassumption).
  - destruct H as [L H]. replace (i <? 0) with false by lia. rewrite H. left. reflexivity.
  - apply in_flat_map. exists (OUpvalueArray b cs len). split; [apply one_in, H|exact IHpart].
  - apply in_flat_map. exists (OInternalVector cs len ini). split; [apply one_in, H|exact IHpart].
  - apply in_flat_map. exists (OInternalComposite ty x f). split; [apply one_in, H|exact IHpart].
Qed.
Lemma inner_part v o o' : In o' (inner v o) -> part v o o'.
Proof.
  intros H. destruct o as [ | | | | | | | | | | | | | |u| | | | |]; cbn [inner] in H; try contradiction.
  all: try (apply in_one in H as [q [-> H]]; constructor; exact H).
  all: try (apply in_app_iff in H as [H|H]; apply in_one in H as [q [-> H]]; constructor; exact H).
  all: try (destruct u as [i|p|p]; [|apply in_one in H as [q [-> H]]; constructor; exact H..]; destruct (i <? 0) eqn:L; [contradiction|];
    destruct (nth_error (rev (stack v)) (Z.to_nat i)) eqn:N; [|contradiction]; destruct H as [<-|[]]; constructor; split; [lia|exact N]).
  all: try (destruct initialized; [|contradiction]).
  all: apply in_all in H as [l [k [p [-> [L [N H]]]]]]; econstructor; eassumption.
Qed.
Lemma in_part v o o' : In o' (parts v o) -> part v o o'.
Proof.
  intros H. destruct o; cbn [parts] in H; try exact (inner_part _ _ _ H).
  all: apply in_flat_map in H as [q [O H]]; apply in_one in O as [p [-> O]]; destruct q; try contradiction; econstructor; [exact O|exact (inner_part _ _ _ H)].
Qed.

Definition prints used v (f : nat) (o : object) : Prop := forall pl, exists t, print_object f used v pl o = Ok t.
Lemma prints_mono used v f f' o : (f <= f')%nat -> prints used v f o -> prints used v f' o.
Proof. intros L H pl. destruct (H pl) as [t E]. exists t. exact (object_mono _ _ _ _ _ _ _ L E). Qed.

Lemma common used v l : (forall o, In o l -> exists f, prints used v f o) -> exists f, forall o, In o l -> prints used v f o.
Proof.
  induction l as [|o l IH]; intros H; [exists O; intros o []|]. destruct (H o (or_introl eq_refl)) as [f F]. destruct IH as [g G]; [intros; apply H; right; assumption|].
  exists (Nat.max f g). intros o' [<-|I]; [refine (prints_mono _ _ _ _ _ _ F)|refine (prints_mono _ _ _ _ _ _ (G _ I))]; lia.
Qed.
Theorem finite_prints used v o : typed v -> captures_ok v -> finite v o -> placed v o -> exists f, prints used v f o.
Proof.
  intros T C F. induction F as [o _ IH]. intros P. destruct (common used v (parts v o)) as [f G].
  { intros o' I. apply in_part in I. apply (IH _ I). exact (part_placed _ _ _ T I P). }
  exists (S (S f)). intros pl. assert (good false (print_object (S (S f)) used v pl o)) as Q; [|destruct (print_object (S (S f)) used v pl o); cbn in Q; try contradiction; try discriminate; eauto].
  assert (forall o', part v o o' -> forall pl, good false (print_object (S f) used v pl o')) as R.
  { intros o' Q pl'. destruct (prints_mono used v f (S f) _ ltac:(lia) (G _ (part_in _ _ _ Q)) pl') as [t ->]. exact I. }
  remember (S f) as g eqn:Eg. cbn [print_object].
  apply good_bind; [|intros; exact I]. apply good_kind; try assumption.
  subst g. intros u ->. unfold print_upvalue. destruct u as [i|p|[p|]].
  4: exact I.
  1-2: cbn [chase bind]; apply good_bind; [|intros; exact I]; apply captured_good; assumption.
  pose proof (placed_typed _ _ T P) as W. destruct (W p eq_refl) as [L [o [N K]]]. destruct o as [ | | | | | | | | | | | | | |w| | | | |]; try contradiction.
  destruct (G _ (part_in _ _ _ (part_outer v p _ N)) pl) as [t E]. destruct f as [|f]; [discriminate|]. cbn [print_object] in E. apply bind_ok in E as [body [E _]].
  cbn [print_kind] in E. unfold print_upvalue in E. apply bind_ok in E as [[n e] [Ch E]]. apply bind_ok in E as [tx [Cp _]].
  cbn [chase]. rewrite N. pose proof (chase_mono (objects v) f (S f) _ _ ltac:(lia) Ch) as Ch'. cbn [chase] in Ch'. rewrite Ch'. cbn [bind].
  erewrite captured_mono; [exact I| |exact Cp]. intros pl1 o1 t1. apply object_mono. lia.
Qed.

Theorem object_ends used v o : typed v -> captures_ok v -> placed v o ->
  (finite v o <-> exists t F, forall f, (F <= f)%nat -> print_object f used v Given o = Ok t) /\
  (~ finite v o -> forall f, print_object f used v Given o = NoFuel).
Proof.
  intros T C P. split; [split|].
  - intros F. destruct (finite_prints used v o T C F P) as [g G]. destruct (G Given) as [t E]. exists t, g. intros f L. exact (object_mono _ _ _ _ _ _ _ L E).
  - intros [t [F H]]. exact (text_finite _ _ _ _ _ _ (H F (le_n F))).
  - intros N f. pose proof (object_good used v f T C Given o P) as G. destruct (print_object f used v Given o) eqn:E; cbn in G; try contradiction; [|reflexivity].
    destruct N. exact (text_finite _ _ _ _ _ _ E).
Qed.
Theorem object_defined used v o f : typed v -> captures_ok v -> placed v o ->
  print_object f used v Given o = NoFuel \/ exists t, print_object f used v Given o = Ok t.
Proof. intros T C P. pose proof (object_good used v f T C Given o P) as G. destruct (print_object f used v Given o); cbn in G; try contradiction; eauto. Qed.
