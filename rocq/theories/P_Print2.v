(** The printers for debugging (C75): objects that look the same have the same text, the printer ends
    exactly for finite objects and is defined on well typed ones. *)
From Coq Require Import String ZArith List Bool Lia Arith ZifyBool ZifyNat.
From Verif Require Import M_Base M_String M_Heap M_Instr M_VM M_Parser M_Disasm M_Print S_IntText S_Types S_Print P_String P_Exec P_Print.
Import ListNotations.
Open Scope Z_scope.
Open Scope list_scope.

Lemma on_stack_raw w i x : on_stack w i x -> raw_get (stack w) i = Ok x.
Proof.
  intros [L N]. unfold raw_get, abs_get, zlen. assert (Z.to_nat i < List.length (stack w))%nat as B by (rewrite <- (rev_length (stack w)); apply nth_error_Some; congruence).
  replace ((i <? 0) || (Z.of_nat (List.length (stack w)) <=? i)) with false by lia. rewrite nth_error_back in N by exact B.
  replace (Z.to_nat (Z.of_nat (List.length (stack w)) - 1 - i)) with (List.length (stack w) - 1 - Z.to_nat i)%nat by lia. rewrite N. reflexivity.
Qed.

Section Look.
Context (used used' : place -> bool) (v v' : vm).
Context (rec rec' : place -> object -> res (list Z)).
Hypothesis Hrec : forall pl o pl' o', same used used' v v' pl o pl' o' -> rec pl o = rec' pl' o'.
Lemma at_same p p' : same_at used used' v v' (Some p) (Some p') -> print_at rec v p = print_at rec' v' p'.
Proof. intros H. inversion H as [|? ? o o' H1 H2 S]; subst. unfold print_at. rewrite H1, H2. apply Hrec, S. Qed.
Lemma null_same p p' : same_at used used' v v' p p' -> print_or_null rec v p = print_or_null rec' v' p'.
Proof. intros H. destruct p as [p|], p' as [p'|]; [exact (at_same _ _ H)|inversion H|inversion H|reflexivity]. Qed.
Lemma cells_same n : forall l l' ps ps', firstn n l = map (fun p => Cell (Some p)) ps -> firstn n l' = map (fun p => Cell (Some p)) ps' -> List.length ps = n ->
  Forall2 (fun p p' => same_at used used' v v' (Some p) (Some p')) ps ps' -> print_cells (print_at rec v) l n = print_cells (print_at rec' v') l' n.
Proof.
  induction n as [|n IH]; intros l l' ps ps' F F' L S; [reflexivity|]. destruct ps as [|p ps]; [discriminate|]. inversion S as [|? p' ? ps1 S1 S2]; subst.
  destruct l as [|c l]; [discriminate|]. destruct l' as [|c' l']; [discriminate|]. cbn in F, F'. injection F as -> F. injection F' as -> F'. cbn [print_cells].
  rewrite (at_same _ _ S1). rewrite (IH l l' ps ps1 F F'); auto.
Qed.
Lemma buffer_same cs cs' len len' : same_cells used used' v v' cs cs' len len' -> print_buffer rec v cs len = print_buffer rec' v' cs' len'.
Proof.
  intros H. inversion H as [? ? ? ? Z0 Z1|l l' ? ? B [ps [ps' [F [F' [L S]]]]]]; subst.
  - unfold print_buffer, as_size. unfold bits in Z0, Z1. rewrite Z0, Z1. destruct cs, cs'; reflexivity.
  - unfold print_buffer. unfold bits in B. unfold as_size. rewrite <- B. apply (cells_same _ _ _ ps ps'); auto. lia.
Qed.
Lemma bytes_same s s' : contents s = contents s' -> print_internalString s = print_internalString s'.
Proof. intros H. unfold print_internalString. change (bytes_in s) with (contents s). change (bytes_in s') with (contents s'). rewrite H. reflexivity. Qed.
Lemma chase_same f : forall u u', alike_captured used used' v v' u u' ->
  match chase f (objects v) u, chase f (objects v') u' with
  | Ok (n, e), Ok (n', e') => n = n' /\ alike_captured used used' v v' e e' /\ (forall p, e <> UpUpvalue (Some p)) /\ print_upvalue_type e = print_upvalue_type e'
  | NoFuel, NoFuel => True
  | _, _ => False
  end.
Proof.
  induction f as [|f IH]; intros u u' H; [exact Logic.I|]. cbn [chase]. inversion H as [i i' o o' H1 H2 S|p p' S| |p p' w w' H1 H2 S]; subst.
  1-3: split; [reflexivity|]; split; [assumption|]; split; [discriminate|reflexivity].
  rewrite H1, H2. specialize (IH _ _ S). destruct (chase f (objects v) w) as [[n e]|?| |], (chase f (objects v') w') as [[n' e']|?| |]; try contradiction; try exact Logic.I.
  cbn [bind]. destruct IH as [-> IH]. auto.
Qed.
Lemma captured_same u u' : alike_captured used used' v v' u u' -> (forall p, u <> UpUpvalue (Some p)) -> print_captured rec v u = print_captured rec' v' u'.
Proof.
  intros H N. inversion H as [i i' o o' H1 H2 S|p p' S| |p p' w w' H1 H2 S]; subst; cbn [print_captured].
  - rewrite (on_stack_raw _ _ _ H1), (on_stack_raw _ _ _ H2). cbn [bind]. apply Hrec, S.
  - apply at_same, S.
  - reflexivity.
  - destruct (N p eq_refl).
Qed.
Lemma vector_same cs cs' len len' ini ini' : alike used used' v v' (OInternalVector cs len ini) (OInternalVector cs' len' ini') ->
  bits len len' \/ ini = false -> print_internalVector rec v cs len ini = print_internalVector rec' v' cs' len' ini'.
Proof.
  intros H B. inversion H as [| | | | | | | | | | | | | | |? ? ? ? ? S| | | | | | | |]; subst. unfold print_internalVector. destruct ini'; [|reflexivity].
  destruct B as [B|B]; [|discriminate]. rewrite (size_eq _ _ B), (buffer_same _ _ _ _ (S eq_refl)). reflexivity.
Qed.
Lemma cells_bits cs cs' len len' : same_cells used used' v v' cs cs' len len' -> bits len len'.
Proof. intros H. inversion H as [? ? ? ? Z0 Z1|? ? ? ? B _]; subst; [unfold bits in *; congruence|exact B]. Qed.
Lemma vector_bits cs cs' len len' ini ini' : alike used used' v v' (OInternalVector cs len ini) (OInternalVector cs' len' ini') -> bits len len' \/ ini = false.
Proof.
  intros H. inversion H as [| | | | | | | | | | | | | | |? ? ? ? ? S| | | | | | | |]; subst. destruct ini'; [|auto]. left. apply cells_bits in S; auto.
Qed.
Lemma composite_same t t' x x' g g' : alike used used' v v' (OInternalComposite t x g) (OInternalComposite t' x' g') ->
  print_internalComposite rec v t x g = print_internalComposite rec' v' t' x' g'.
Proof.
  intros H. inversion H as [| | | | | | | | | | | | | | | | | | | |? ? ? ? ? ? B S1 S2| | |]; subst. unfold print_internalComposite.
  rewrite (size_eq _ _ B), (null_same _ _ S1), (null_same _ _ S2). reflexivity.
Qed.
Lemma kind_same f o o' : alike used used' v v' o o' -> print_kind rec v f o = print_kind rec' v' f o'.
Proof.
  intros H. inversion H; subst; cbn [print_kind].
  - reflexivity.
  - replace (b =? 0) with (b' =? 0) by lia. reflexivity.
  - rewrite (ptrdiff_eq _ _ H0). reflexivity.
  - reflexivity.
  - apply bytes_same. assumption.
  - reflexivity.
  - unfold print_string, internalString_at. rewrite H0, H1. cbn [bind]. rewrite (bytes_same _ _ H2), (ptrdiff_eq _ _ H3), (size_eq _ _ H4). reflexivity.
  - unfold print_symbol. rewrite (size_eq _ _ H0). reflexivity.
  - unfold print_symbol, internalString_at. rewrite H1, H2. cbn [bind]. rewrite (bytes_same _ _ H3), (size_eq _ _ H0). reflexivity.
  - reflexivity.
  - unfold print_closure. rewrite (ptrdiff_eq _ _ H0), (uint8_eq _ _ H3).
    assert (print_closure_code v c = print_closure_code v' c') as ->.
    { inversion H1 as [|? ? ? ? d d' X1 X2 X3 X4]; subst; [reflexivity|]. unfold print_closure_code. rewrite X1, X2. change (bytes_in d) with (contents d). change (bytes_in d') with (contents d').
      rewrite (size_eq _ _ X3). destruct d, d'; try discriminate X4; reflexivity. }
    assert (print_closure_upvalues rec v u = print_closure_upvalues rec' v' u') as ->; [|reflexivity].
    inversion H2 as [|? ? ? ? cs cs' ? ? X1 X2 X3 X4 X5]; subst; [reflexivity|]. unfold print_closure_upvalues. rewrite X1, X2, (size_eq _ _ X3).
    destruct cs as [l|], cs' as [l'|]; try discriminate X4; [|reflexivity]. pose proof (buffer_same _ _ _ _ (X5 eq_refl)) as E. cbn [print_buffer] in E. rewrite E. reflexivity.
  - unfold print_list. rewrite (null_same _ _ H0). reflexivity.
  - unfold print_cons. rewrite (null_same _ _ H0), (null_same _ _ H1). reflexivity.
  - unfold print_upvalue. pose proof (chase_same f _ _ H0) as C. destruct (chase f (objects v) u) as [[n e]|?| |], (chase f (objects v') u') as [[n' e']|?| |]; try contradiction; try reflexivity.
    cbn [bind]. destruct C as [-> [A [N ->]]]. rewrite (captured_same _ _ A N). reflexivity.
  - unfold print_upvalueArray. rewrite (size_eq _ _ (cells_bits _ _ _ _ H0)), (buffer_same _ _ _ _ H0). reflexivity.
  - apply vector_same; [exact H|exact (vector_bits _ _ _ _ _ _ H)].
  - reflexivity.
  - unfold print_vector. rewrite H0, H1. destruct o0; try contradiction. destruct o'0; try contradiction. rewrite (ptrdiff_eq _ _ H5).
    rewrite (vector_same _ _ _ _ _ _ H4 (vector_bits _ _ _ _ _ _ H4)). reflexivity.
  - unfold print_bytecode. change (bytes_in c) with (contents c). change (bytes_in c') with (contents c'). rewrite (size_eq _ _ H0). destruct c, c'; try discriminate H1; reflexivity.
  - rewrite (size_eq _ _ H0). reflexivity.
  - apply composite_same. exact H.
  - reflexivity.
  - unfold print_composite. rewrite H0, H1. destruct o0; try contradiction. destruct o'0; try contradiction. rewrite (composite_same _ _ _ _ _ _ H4). reflexivity.
  - unfold print_user. replace (d =? 0) with (d' =? 0) by lia. destruct ms, ms'; try reflexivity; exfalso; destruct H1; [discriminate H1|discriminate H2]; reflexivity.
Qed.
End Look.
Theorem object_same used used' v v' : forall f pl o pl' o', same used used' v v' pl o pl' o' -> print_object f used v pl o = print_object f used' v' pl' o'.
Proof.
  induction f as [|f IH]; intros pl o pl' o' H; [reflexivity|]. inversion H as [? ? ? ? U A]; subst. cbn [print_object]. rewrite U.
  rewrite (kind_same used used' v v' _ _ IH f o o' A). reflexivity.
Qed.

(** * More fuel *)
Lemma bind_mono {A B} (m m' : res A) (f f' : A -> res B) b : bind m f = Ok b -> (forall a, m = Ok a -> m' = Ok a) -> (forall a, f a = Ok b -> f' a = Ok b) -> bind m' f' = Ok b.
Proof. intros E H K. apply bind_ok in E as [a [A1 E]]. rewrite (H _ A1). apply K, E. Qed.
Section Mono.
Context (v : vm) (rec rec' : place -> object -> res (list Z)).
Hypothesis Hrec : forall pl o t, rec pl o = Ok t -> rec' pl o = Ok t.
Lemma at_mono p t : print_at rec v p = Ok t -> print_at rec' v p = Ok t.
Proof. unfold print_at. destruct (nth_error (objects v) p); auto. Qed.
Lemma null_mono p t : print_or_null rec v p = Ok t -> print_or_null rec' v p = Ok t.
Proof. destruct p; cbn; auto using at_mono. Qed.
Lemma cells_mono n : forall l t, print_cells (print_at rec v) l n = Ok t -> print_cells (print_at rec' v) l n = Ok t.
Proof.
  induction n as [|n IH]; intros l t E; [exact E|]. cbn [print_cells] in *. destruct l as [|[|[p|]] l]; try discriminate.
  refine (bind_mono _ _ _ _ _ E (fun a => at_mono p a) _). intros a E1. refine (bind_mono _ _ _ _ _ E1 (fun a => IH l a) _). auto.
Qed.
Lemma buffer_mono cs len t : print_buffer rec v cs len = Ok t -> print_buffer rec' v cs len = Ok t.
Proof. destruct cs; cbn [print_buffer]; auto using cells_mono. Qed.
Lemma elements_mono cs len ini t : print_internalVector rec v cs len ini = Ok t -> print_internalVector rec' v cs len ini = Ok t.
Proof.
  unfold print_internalVector. intros E. refine (bind_mono _ _ _ _ _ E _ _); auto. destruct ini; auto. intros a E1.
  refine (bind_mono _ _ _ _ _ E1 _ _); auto. intros b E2. refine (bind_mono _ _ _ _ _ E2 (fun a => buffer_mono cs len a) _). auto.
Qed.
Lemma instance_mono ty x g t : print_internalComposite rec v ty x g = Ok t -> print_internalComposite rec' v ty x g = Ok t.
Proof.
  unfold print_internalComposite. intros E. refine (bind_mono _ _ _ _ _ E _ _); auto. intros a E1. refine (bind_mono _ _ _ _ _ E1 (fun a => null_mono x a) _).
  intros b E2. refine (bind_mono _ _ _ _ _ E2 (fun a => null_mono g a) _). auto.
Qed.
Lemma captured_mono u t : print_captured rec v u = Ok t -> print_captured rec' v u = Ok t.
Proof.
  destruct u as [i|[p|]|p]; cbn [print_captured]; auto using at_mono. intros E. refine (bind_mono _ _ _ _ _ E _ _); auto.
Qed.
Lemma chase_mono os f : forall f' u r, (f <= f')%nat -> chase f os u = Ok r -> chase f' os u = Ok r.
Proof.
  induction f as [|f IH]; intros f' u r L E; [discriminate|]. destruct f' as [|f']; [lia|]. cbn [chase] in *. destruct u as [i|p|[p|]]; auto.
  destruct (nth_error os p) as [[]|]; try discriminate. apply bind_ok in E as [[n e] [C E]]. rewrite (IH f' _ _ ltac:(lia) C). exact E.
Qed.
Lemma kind_mono f f' o t : (f <= f')%nat -> print_kind rec v f o = Ok t -> print_kind rec' v f' o = Ok t.
Proof.
  intros L E. destruct o; cbn [print_kind] in *; auto using elements_mono, instance_mono.
  - unfold print_list in *. refine (bind_mono _ _ _ _ _ E (fun a => null_mono l a) _). auto.
  - unfold print_closure in *. refine (bind_mono _ _ _ _ _ E _ _); auto. intros a E1. refine (bind_mono _ _ _ _ _ E1 _ _); auto. intros b E2.
    refine (bind_mono _ _ _ _ _ E2 _ _); auto. intros c. unfold print_closure_upvalues. destruct upvalues as [p|]; auto. destruct (nth_error (objects v) p) as [[]|]; auto.
    intros E3. refine (bind_mono _ _ _ _ _ E3 _ _); auto. intros d E4. destruct upvalues; auto. refine (bind_mono _ _ _ _ _ E4 (fun a => cells_mono _ _ a) _). auto.
  - unfold print_vector in *. destruct v0 as [p|]; auto. destruct (nth_error (objects v) p) as [[]|]; auto.
    refine (bind_mono _ _ _ _ _ E (fun a => elements_mono _ _ _ a) _). auto.
  - unfold print_composite in *. destruct c as [p|]; auto. destruct (nth_error (objects v) p) as [[]|]; auto.
    refine (bind_mono _ _ _ _ _ E (fun a => instance_mono _ _ _ a) _). auto.
  - unfold print_cons in *. refine (bind_mono _ _ _ _ _ E (fun a => null_mono _ a) _). intros a E1. refine (bind_mono _ _ _ _ _ E1 (fun a => null_mono _ a) _). auto.
  - unfold print_upvalue in *. refine (bind_mono _ _ _ _ _ E (fun a => chase_mono _ _ _ _ a L) _). intros [n e] E1.
    refine (bind_mono _ _ _ _ _ E1 (fun a => captured_mono _ a) _). auto.
  - unfold print_upvalueArray in *. refine (bind_mono _ _ _ _ _ E _ _); auto. intros a E1. refine (bind_mono _ _ _ _ _ E1 (fun a => buffer_mono _ _ a) _). auto.
Qed.
End Mono.
Lemma object_mono used v f : forall f' pl o t, (f <= f')%nat -> print_object f used v pl o = Ok t -> print_object f' used v pl o = Ok t.
Proof.
  induction f as [|f IH]; intros f' pl o t L E; [discriminate|]. destruct f' as [|f']; [lia|]. cbn [print_object] in *.
  refine (bind_mono _ _ _ _ _ E _ _); auto. intros a. apply kind_mono; [|lia]. intros pl1 o1 t1. apply IH. lia.
Qed.

(** * A text only for finite objects *)
Section Finite.
Context (v : vm) (rec : place -> object -> res (list Z)).
Hypothesis Hrec : forall pl o t, rec pl o = Ok t -> finite v o.
Lemma at_finite p t o : print_at rec v p = Ok t -> holds v p o -> finite v o.
Proof. unfold print_at, holds. intros E H. rewrite H in E. eauto. Qed.
Lemma null_finite p t o : print_or_null rec v (Some p) = Ok t -> holds v p o -> finite v o.
Proof. apply at_finite. Qed.
Lemma cells_finite n : forall l t k p o, print_cells (print_at rec v) l n = Ok t -> (k < n)%nat -> nth_error l k = Some (Cell (Some p)) -> holds v p o -> finite v o.
Proof.
  induction n as [|n IH]; intros l t k p o E L N H; [lia|]. cbn [print_cells] in E. destruct l as [|[|[q|]] l]; try discriminate.
  apply bind_ok in E as [a [A E]]. apply bind_ok in E as [b [B E]]. destruct k as [|k]; cbn in N.
  - injection N as ->. exact (at_finite _ _ _ A H).
  - exact (IH _ _ k p o B ltac:(lia) N H).
Qed.
Lemma buffer_finite l len t k p o : print_buffer rec v (Some l) len = Ok t -> Z.of_nat k < len mod 2 ^ 64 -> nth_error l k = Some (Cell (Some p)) -> holds v p o -> finite v o.
Proof. intros E L. cbn [print_buffer] in E. refine (cells_finite _ _ _ _ _ _ E _). unfold as_size. lia. Qed.
Lemma elements_finite cs len ini t o : print_internalVector rec v cs len ini = Ok t -> part v (OInternalVector cs len ini) o -> finite v o.
Proof.
  intros E P. inversion P; subst. unfold print_internalVector in E. apply bind_ok in E as [a [A E]]. apply bind_ok in A as [b [B A]]. apply bind_ok in A as [c [C A]].
  eapply buffer_finite; eassumption.
Qed.
Lemma instance_finite ty x g t o : print_internalComposite rec v ty x g = Ok t -> part v (OInternalComposite ty x g) o -> finite v o.
Proof.
  intros E P. unfold print_internalComposite in E. apply bind_ok in E as [a [A E]]. apply bind_ok in E as [b [B E]]. apply bind_ok in E as [c [C E]].
  inversion P; subst; eapply null_finite; eassumption.
Qed.
Lemma holds_one p o o' : holds v p o -> holds v p o' -> o = o'.
Proof. unfold holds. congruence. Qed.
Lemma chase_finite f : forall u n e t, chase f (objects v) u = Ok (n, e) -> print_captured rec v e = Ok t -> finite v (OUpvalue u).
Proof.
  induction f as [|f IH]; intros u n e t C P; [discriminate|]. constructor. intros o H. cbn [chase] in C. inversion H; subst.
  - injection C as <- <-. cbn [print_captured] in P. apply bind_ok in P as [x [X P]]. apply raw_on_stack in X.
    assert (x = o) as -> by (match goal with K : on_stack v i o |- _ => destruct K, X; congruence end). exact (Hrec _ _ _ P).
  - injection C as <- <-. cbn [print_captured] in P. eapply at_finite; eassumption.
  - match goal with K : holds v p o |- _ => unfold holds in K; rewrite K in C end. destruct o; try discriminate. apply bind_ok in C as [[m w] [C E]]. injection E as <- <-.
    exact (IH _ _ _ _ C P).
Qed.
Lemma kind_finite f o t : print_kind rec v f o = Ok t -> finite v o.
Proof.
  intros E. destruct o; cbn [print_kind] in E; try (constructor; intros o H; inversion H; fail).
  - constructor. intros o H. inversion H; subst. unfold print_list in E. apply bind_ok in E as [a [A E]]. eapply null_finite; eassumption.
  - constructor. intros o H. inversion H; subst. unfold print_closure in E. apply bind_ok in E as [a [A E]]. apply bind_ok in E as [bc [B E]]. apply bind_ok in E as [c [C E]].
    cbn [print_closure_upvalues] in C. match goal with K : holds v p _ |- _ => unfold holds in K; rewrite K in C end. apply bind_ok in C as [k [K C]]. apply bind_ok in C as [d [D C]].
    match goal with K : part v (OUpvalueArray _ _ _) o |- _ => inversion K; subst end. eapply (buffer_finite l len d k0); eassumption.
  - constructor. intros o H. inversion H; subst. unfold print_vector in E. match goal with K : holds v p _ |- _ => unfold holds in K; rewrite K in E end.
    apply bind_ok in E as [a [A E]]. eapply elements_finite; eassumption.
  - constructor. intros o H. inversion H; subst. unfold print_composite in E. match goal with K : holds v p _ |- _ => unfold holds in K; rewrite K in E end.
    apply bind_ok in E as [a [A E]]. eapply instance_finite; eassumption.
  - unfold print_cons in E. apply bind_ok in E as [a [A E]]. apply bind_ok in E as [b [B E]]. constructor. intros o H. inversion H; subst; eapply null_finite; eassumption.
  - unfold print_upvalue in E. apply bind_ok in E as [[n e] [C E]]. apply bind_ok in E as [a [A E]]. exact (chase_finite _ _ _ _ _ C A).
  - unfold print_upvalueArray in E. apply bind_ok in E as [a [A E]]. apply bind_ok in E as [b [B E]]. constructor. intros o H. inversion H; subst. eapply buffer_finite; eassumption.
  - constructor. intros o H. eapply elements_finite; eassumption.
  - constructor. intros o H. eapply instance_finite; eassumption.
Qed.
End Finite.
Theorem text_finite used v f : forall pl o t, print_object f used v pl o = Ok t -> finite v o.
Proof.
  induction f as [|f IH]; intros pl o t E; [discriminate|]. cbn [print_object] in E. apply bind_ok in E as [a [A E]]. exact (kind_finite v _ IH _ _ _ A).
Qed.
