(** Code that is compiled above other values (C69). *)
From Coq Require Import String Ascii ZArith List Bool Lia.
From Coq Require Import ZifyBool ZifyNat.
From Verif Require Import M_Base M_Trie M_Instr M_VM M_Asm M_Parser M_Symbol M_Scope M_Compile.
From Verif Require Import S_Symbol S_Scope S_Asm S_Compile P_Symbol P_Scope P_Compile P_Compile2 P_Compile3 P_Compile4 P_Compile5 S_Macro.
Import ListNotations.
Open Scope Z_scope.
Open Scope list_scope.

Section Shift.
  Variable ids : bytes -> Z.
  Variable d : Z.
  (** [vs'] has the variables of [vs] that are mentioned, [d] places further down. *)
  Definition moved (vs vs' : list (bytes * Z)) (l : list bytes) : Prop :=
    forall x, In x l -> find_name vs' x = option_map (fun s => s - d) (find_name vs x).
  Lemma moved_incl vs vs' l l' : moved vs vs' l -> incl l' l -> moved vs vs' l'.
  Proof. intros M I x Hx. apply M, I, Hx. Qed.
  Definition down (new : list (bytes * Z)) : list (bytes * Z) := map (fun p => (fst p, snd p - d)) new.
  Lemma down_find new x : find_name (down new) x = option_map (fun s => s - d) (find_name new x).
  Proof. induction new as [|[y s] r IH]; [reflexivity|]. cbn [down map find_name fst snd]. fold (down r). destruct (bytes_dec y x); [reflexivity|exact IH]. Qed.
  Lemma moved_more vs vs' l new : moved vs vs' l -> moved (new ++ vs) (down new ++ vs') l.
  Proof.
    intros M x Hx. rewrite !find_name_app, down_find. destruct (find_name new x); [reflexivity|]. apply M, Hx.
  Qed.
  Lemma quoted_shift : (forall dt n code n', quoted ids dt n code n' -> quoted ids dt (n - d) code (n' - d)) /\
    (forall ds n code n', quoted_list ids ds n code n' -> quoted_list ids ds (n - d) code (n' - d)).
  Proof.
    apply quoted_mutind; intros.
    - replace (n + 1 - d) with (n - d + 1) by lia. constructor.
    - replace (n + 1 - d) with (n - d + 1) by lia. constructor.
    - constructor. assumption.
    - replace (n + 1 - d) with (n - d + 1) by lia. constructor.
    - replace (n2 + 1 - d) with (n2 - d + 1) by lia. replace (n2 - (n1 - 1)) with (n2 - d - (n1 - d - 1)) by lia. econstructor; eassumption.
  Qed.
  Lemma move_down_shift a b : move_down (a - d) (b - d) = move_down a b.
  Proof.
    unfold move_down. replace (b - d - (a - d)) with (b - a) by lia. 
    destruct (Z.eqb_spec (a - d) (b - d - 1)), (Z.eqb_spec a (b - 1)); try lia; reflexivity.
  Qed.

  Theorem shift5 :
    (forall vs n L e code n' L', comp ids vs n L e code n' L' -> forall vs', moved vs vs' (mentioned e) ->
       comp ids vs' (n - d) L e code (n' - d) L') /\
    (forall vs n L e code n' L' i, arg ids vs n L e code n' L' i -> forall vs', moved vs vs' (mentioned e) ->
       arg ids vs' (n - d) L e code (n' - d) L' (i - d)) /\
    (forall vs n L es code n' L', comp_list ids vs n L es code n' L' -> forall vs', moved vs vs' (flat_map mentioned es) ->
       comp_list ids vs' (n - d) L es code (n' - d) L') /\
    (forall vs n L b code new n' L', comp_items ids vs n L b code new n' L' -> forall vs', moved vs vs' (flat_map mentioned_item b) ->
       comp_items ids vs' (n - d) L b code (down new) (n' - d) L') /\
    (forall vs n L es code n' L', comp_args ids vs n L es code n' L' -> forall vs', moved vs vs' (flat_map mentioned es) ->
       comp_args ids vs' (n - d) L es code (n' - d) L').
  Proof.
    assert (forall vs vs' l x s, moved vs vs' l -> In x l -> find_name vs x = Some s -> find_name vs' x = Some (s - d)) as F1.
    { intros vs vs' l x s M I E. rewrite (M x I), E. reflexivity. }
    assert (forall vs vs' l x, moved vs vs' l -> In x l -> find_name vs x = None -> find_name vs' x = None) as F2.
    { intros vs vs' l x M I E. rewrite (M x I), E. reflexivity. }
    assert (forall a, Z -> a + 1 - d = a - d + 1) as E1 by (intros; lia).
    apply (comp_mutind5 ids False); intros; cbn [mentioned mentioned_item flat_map] in *; try contradiction.
    - rewrite E1 by exact 0. constructor.
    - rewrite E1 by exact 0. constructor.
    - rewrite E1 by exact 0. replace (n - s) with (n - d - (s - d)) by lia. constructor. eapply F1; eauto. left; reflexivity.
    - rewrite E1 by exact 0. constructor. eapply F2; eauto. left; reflexivity.
    - constructor. apply quoted_shift. assumption.
    - rewrite E1 by exact 0. replace (n1 - i) with (n1 - d - (i - d)) by lia. constructor. auto.
    - rewrite E1 by exact 0. replace (n2 - x) with (n2 - d - (x - d)) by lia. replace (n2 - y) with (n2 - d - (y - d)) by lia. eapply c_bin.
      + apply H. eapply moved_incl; [eassumption|]. apply incl_appl, incl_refl.
      + apply H0. eapply moved_incl; [eassumption|]. apply incl_appr, incl_refl.
      + match goal with E : match b with _ => _ end |- _ => destruct b; injection E as <- <-; reflexivity end.
    - constructor. auto.
    - apply c_if_lit. apply H. cbn [app] in *. eapply moved_incl; [eassumption|]. destruct (literal_true l); [apply incl_appl|apply incl_appr]; apply incl_refl.
    - replace (n1 - m) with (n1 - d - (m - d)) by lia. rewrite <- (move_down_shift m ny), <- (move_down_shift m nx), E1 by exact 0.
      eapply c_if; [assumption| |destruct (is_var c); subst; reflexivity| |]; [apply H|apply H0|apply H1]; (eapply moved_incl; [eassumption|]).
      + apply incl_appl, incl_refl.
      + apply incl_appr, incl_appr, incl_refl.
      + apply incl_appr, incl_appl, incl_refl.
    - apply c_when_taken; auto.
    - rewrite E1 by exact 0. apply c_when_not. assumption.
    - replace (n1 - m) with (n1 - d - (m - d)) by lia.
      eapply c_when; [assumption| |destruct (is_var c); subst; reflexivity|]; [apply H|apply H0]; (eapply moved_incl; [eassumption|]).
      + apply incl_appl, incl_refl.
      + apply incl_appr, incl_refl.
    - replace (n1 - m) with (n1 - d - (m - d)) by lia. rewrite E1 by exact 0.
      eapply c_unless; [assumption| |destruct (is_var c); subst; reflexivity|]; [apply H|apply H0]; (eapply moved_incl; [eassumption|]).
      + apply incl_appl, incl_refl.
      + apply incl_appr, incl_refl.
    - replace (n1 - n) with (n1 - d - (n - d)) by lia. replace (nb - n) with (nb - d - (n - d)) by lia. rewrite E1 by exact 0.
      eapply c_while; [apply H|apply H0]; (eapply moved_incl; [eassumption|]).
      + apply incl_appr, incl_refl.
      + apply incl_appl, incl_refl.
    - replace (n1 - s) with (n1 - d - (s - d)) by lia. replace (s =? n1 - 1) with (s - d =? n1 - d - 1) by lia.
      eapply c_set_local; [|eapply F1; eauto; left; reflexivity]. apply H. eapply moved_incl; [eassumption|]. apply incl_tl, incl_refl.
    - eapply c_set_global; [|eapply F2; eauto; left; reflexivity]. apply H. eapply moved_incl; [eassumption|]. apply incl_tl, incl_refl.
    - apply c_global. auto.
    - rewrite <- (move_down_shift n n1), E1 by exact 0. eapply c_scope. eauto.
    - replace (n + 2 - d) with (n - d + 2) by lia. replace (n' - n) with (n' - d - (n - d)) by lia. apply c_call. rewrite <- E1 by exact 0. apply H.
      eapply moved_incl; [eassumption|]. apply incl_tl, incl_refl.
    - assert (callee_slot vs' f (n1 - d) = callee_slot vs f n1 - d) as Ec.
      { destruct f; cbn [callee_slot]; try lia. match goal with M : moved _ _ _ |- _ => rewrite (M x) by (left; reflexivity) end. destruct (find_name vs x); cbn; lia. }
      rewrite E1 by exact 0. replace (n' - callee_slot vs f n1) with (n' - d - callee_slot vs' f (n1 - d)) by lia.
      eapply c_funcall; [apply H|apply H0]; (eapply moved_incl; [eassumption|]); [apply incl_appl|apply incl_appr]; apply incl_refl.
    - apply arg_local. eapply F1; eauto. left; reflexivity.
    - replace (n' - 1 - d) with (n' - d - 1) by lia. apply arg_other; [|auto]. intros x ->. eapply F2; eauto. left; reflexivity.
    - rewrite E1 by exact 0. constructor.
    - rewrite E1 by exact 0. replace (n2 - i) with (n2 - d - (i - d)) by lia. replace (n2 - (n1 - 1)) with (n2 - d - (n1 - d - 1)) by lia.
      econstructor; [apply H|apply H0]; (eapply moved_incl; [eassumption|]); [apply incl_appr|apply incl_appl]; apply incl_refl.
    - rewrite E1 by exact 0. constructor.
    - rewrite <- (move_down_shift n n1), E1 by exact 0. constructor. apply H. eapply moved_incl; [eassumption|]. apply incl_appl, incl_refl.
    - replace (n1 - n) with (n1 - d - (n - d)) by lia. eapply i_do; [assumption| |]; [apply H|apply H0]; (eapply moved_incl; [eassumption|]).
      + apply incl_appl, incl_refl.
      + apply incl_appr, incl_refl.
    - rewrite <- (move_down_shift n n1). replace (n + 2 - d) with (n - d + 2) by lia. apply i_def_last. apply H. eapply moved_incl; [eassumption|]. apply incl_appl, incl_refl.
    - rewrite <- (move_down_shift n n1). unfold down. rewrite map_app. eapply i_def; [assumption| |].
      + apply H. eapply moved_incl; [eassumption|]. apply incl_appl, incl_refl.
      + rewrite <- E1 by exact 0. apply H0. apply (moved_more vs vs' _ [(x, n)]). eapply moved_incl; [eassumption|]. apply incl_appr, incl_refl.
    - apply i_splice_last. apply H. rewrite app_nil_r in *. assumption.
    - unfold down. rewrite map_app. eapply i_splice; [assumption| |].
      + apply H. eapply moved_incl; [eassumption|]. apply incl_appl, incl_refl.
      + replace (n1 - d - 1) with (n1 - 1 - d) by lia. apply H0. apply (moved_more vs vs' _ new). eapply moved_incl; [eassumption|]. apply incl_appr, incl_refl.
    - constructor.
    - rewrite <- (move_down_shift n n1). econstructor.
      + apply H. eapply moved_incl; [eassumption|]. apply incl_appl, incl_refl.
      + rewrite <- E1 by exact 0. apply H0. eapply moved_incl; [eassumption|]. apply incl_appr, incl_refl.
  Qed.
  Theorem shift :
    (forall vs n L e code n' L', comp ids vs n L e code n' L' -> forall vs', moved vs vs' (mentioned e) ->
       comp ids vs' (n - d) L e code (n' - d) L') /\
    (forall vs n L e code n' L' i, arg ids vs n L e code n' L' i -> forall vs', moved vs vs' (mentioned e) ->
       arg ids vs' (n - d) L e code (n' - d) L' (i - d)) /\
    (forall vs n L es code n' L', comp_list ids vs n L es code n' L' -> forall vs', moved vs vs' (flat_map mentioned es) ->
       comp_list ids vs' (n - d) L es code (n' - d) L') /\
    (forall vs n L b code new n' L', comp_items ids vs n L b code new n' L' -> forall vs', moved vs vs' (flat_map mentioned_item b) ->
       comp_items ids vs' (n - d) L b code (down new) (n' - d) L').
  Proof. destruct shift5 as [A [B [C [D _]]]]. auto. Qed.
End Shift.
