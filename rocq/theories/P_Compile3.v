(** The compiler emits what [comp] says: the generators. *)
From Coq Require Import String Ascii ZArith List Bool Lia Floats.SpecFloat.
From Coq Require Import ZifyBool ZifyNat.
From Flocq Require Import IEEE754.BinarySingleNaN.
From Verif Require Import M_Base M_Trie M_Instr M_Asm M_Parser M_Symbol M_Scope M_Compile.
From Verif Require Import S_Symbol S_Scope S_Compile P_Symbol P_Scope P_Compile P_Compile2.
Import ListNotations.
Open Scope Z_scope.
Open Scope list_scope.

Section Named.
Context {NU : names_used} {OU : outer}.

(** [since] together with what is known of the code, whatever numbers the symbols get later. *)
Record run (st0 st : cstate) (code : list ainstr) (n L : Z) (bs : list block) (F : (bytes -> Z) -> Prop) : Prop := {
  run_since : since st0 st code n L bs;
  run_facts : forall ids, agrees (symbols_of st) ids -> F ids
}.
Lemma run_start st bs : ok st bs -> run st st [] (locals_length st) (label_number st) bs (fun _ => True).
Proof. intros H. constructor; auto using since_start. Qed.
Lemma run_then st0 st code n L bs F s code' n' L' bs' : run st0 st code n L bs F -> since st s code' n' L' bs' ->
  run st0 s (code ++ code') n' L' bs' F.
Proof.
  intros [A B] C. constructor; [eapply since_trans; eauto|]. intros ids H. apply B. eapply agrees_later; [apply C|exact H].
Qed.
Lemma run_self st0 st code n L bs F : run st0 st code n L bs F -> since st st [] n L bs.
Proof.
  intros [A B]. pose proof (since_start st bs (si_ok _ _ _ _ _ _ A)) as H.
  rewrite (si_locals _ _ _ _ _ _ A), (si_label _ _ _ _ _ _ A) in H. exact H.
Qed.
Lemma run_know st0 st code n L bs F (G : (bytes -> Z) -> Prop) : run st0 st code n L bs F ->
  (forall ids, agrees (symbols_of st) ids -> G ids) -> run st0 st code n L bs (fun ids => F ids /\ G ids).
Proof. intros [A B] H. constructor; auto. Qed.

Section Steps.
  Variables (st0 st : cstate) (code : list ainstr) (n L : Z) (bs : list block) (F : (bytes -> Z) -> Prop).
  Hypothesis R : run st0 st code n L bs F.

  Lemma r_locals {B} (f : Z -> CM B) Q : does (f n) st Q -> does (cbind locals f) st Q.
  Proof.
    intros H. apply does_bind, does_locals. rewrite (si_locals _ _ _ _ _ _ (run_since _ _ _ _ _ _ _ R)). exact H.
  Qed.
  Lemma r_emit a d (Q : unit -> cstate -> Prop) :
    (forall s, run st0 s (code ++ [a]) (n + d) L bs F -> Q tt s) -> does (emit a d) st Q.
  Proof.
    intros H. eapply does_weaken; [eapply does_emit, (run_self _ _ _ _ _ _ _ R)|]. intros [] s K. apply H.
    exact (run_then _ _ _ _ _ _ _ _ _ _ _ _ R K).
  Qed.
  Lemma r_locals_to k (Q : unit -> cstate -> Prop) :
    (forall s, run st0 s code k L bs F -> Q tt s) -> does (locals_to k) st Q.
  Proof.
    intros H. eapply does_weaken; [eapply does_locals_to, (run_self _ _ _ _ _ _ _ R)|]. intros [] s K. apply H.
    pose proof (run_then _ _ _ _ _ _ _ _ _ _ _ _ R K) as X. rewrite app_nil_r in X. exact X.
  Qed.
  Lemma r_label (Q : Z -> cstate -> Prop) :
    (forall s bs', rooted bs bs' -> run st0 s code n (L + 1) bs' F -> Q L s) -> does new_label st Q.
  Proof.
    intros H. eapply does_weaken; [eapply does_label, (run_self _ _ _ _ _ _ _ R)|]. intros l s [-> [bs' [RT K]]]. apply (H s bs' RT).
    pose proof (run_then _ _ _ _ _ _ _ _ _ _ _ _ R K) as X. rewrite app_nil_r in X. exact X.
  Qed.
  Lemma r_push (Q : unit -> cstate -> Prop) :
    (forall s, run st0 s code n L (Block [] [] false :: bs) F -> Q tt s) -> does (push_scope false) st Q.
  Proof.
    intros H. eapply does_weaken; [eapply does_push, (run_self _ _ _ _ _ _ _ R)|]. intros [] s K. apply H.
    pose proof (run_then _ _ _ _ _ _ _ _ _ _ _ _ R K) as X. rewrite app_nil_r in X. exact X.
  Qed.
  Lemma r_look x (Q : place -> cstate -> Prop) : usable x = true ->
    (forall s, run st0 s code n L bs F -> Q (match find_name (fv bs) x with Some s => Stack s | None => NotLexical end) s) ->
    does (look x false) st Q.
  Proof.
    intros U H. eapply does_weaken; [eapply does_look; [apply (run_self _ _ _ _ _ _ _ R)|exact U]|]. intros p s [-> K]. apply H.
    pose proof (run_then _ _ _ _ _ _ _ _ _ _ _ _ R K) as X. rewrite app_nil_r in X. exact X.
  Qed.
  Lemma r_look_function x (Q : place -> cstate -> Prop) : callable x = true ->
    (forall s, run st0 s code n L bs F -> Q NotLexical s) -> does (look x true) st Q.
  Proof.
    intros U H. eapply does_weaken; [eapply does_look_function; [apply (run_self _ _ _ _ _ _ _ R)|exact U]|]. intros p s [-> K]. apply H.
    pose proof (run_then _ _ _ _ _ _ _ _ _ _ _ _ R K) as X. rewrite app_nil_r in X. exact X.
  Qed.
  Lemma r_keyed (m : CM Z) x (Q : Z -> cstate -> Prop) :
    does m st (fun k s => nameToValue (symbols_of s) x = k /\ k <> -1 /\ since st s [] n L bs) ->
    (forall k s, run st0 s code n L bs (fun ids => F ids /\ ids x = k) -> Q k s) -> does m st Q.
  Proof.
    intros D H. eapply does_weaken; [exact D|]. intros k s [K [N S]]. apply H.
    pose proof (run_then _ _ _ _ _ _ _ _ _ _ _ _ R S) as X. rewrite app_nil_r in X. apply run_know; [exact X|].
    intros ids A. rewrite <- K in *. apply A, N.
  Qed.
  Lemma r_symbol x (Q : Z -> cstate -> Prop) :
    (forall k s, run st0 s code n L bs (fun ids => F ids /\ ids x = k) -> Q k s) -> does (symbol x) st Q.
  Proof. apply r_keyed. eapply does_symbol, (run_self _ _ _ _ _ _ _ R). Qed.
  Lemma r_addGlobal x (Q : Z -> cstate -> Prop) :
    (forall k s, run st0 s code n L bs (fun ids => F ids /\ ids x = k) -> Q k s) -> does (addGlobal x) st Q.
  Proof. apply r_keyed. eapply does_addGlobal, (run_self _ _ _ _ _ _ _ R). Qed.
  Lemma r_global_key x (Q : Z -> cstate -> Prop) :
    (forall k s, run st0 s code n L bs (fun ids => F ids /\ ids x = k) -> Q k s) -> does (global_key x) st Q.
  Proof. apply r_keyed. eapply does_global_key, (run_self _ _ _ _ _ _ _ R). Qed.
End Steps.

Lemma r_pop st0 st code n L b bs F (Q : unit -> cstate -> Prop) : run st0 st code n L (b :: bs) F -> of_function b = false ->
  (forall s, run st0 s code n L bs F -> Q tt s) -> does pop_scope st Q.
Proof.
  intros R Hf H. eapply does_weaken; [eapply does_pop; [apply (run_self _ _ _ _ _ _ _ R)|exact Hf]|]. intros [] s K. apply H.
  pose proof (run_then _ _ _ _ _ _ _ _ _ _ _ _ R K) as X. rewrite app_nil_r in X. exact X.
Qed.
Lemma r_top st0 st code n L b bs F (Q : scope -> cstate -> Prop) : run st0 st code n L (b :: bs) F ->
  (forall sc s, scope_uvs sc = [] -> run st0 s code n L (b :: bs) F -> Q sc s) -> does top_scope st Q.
Proof.
  intros R H. eapply does_weaken; [eapply does_top, (run_self _ _ _ _ _ _ _ R)|]. intros sc s [U K]. apply (H _ _ U).
  pose proof (run_then _ _ _ _ _ _ _ _ _ _ _ _ R K) as X. rewrite app_nil_r in X. exact X.
Qed.
Lemma r_object x slot st0 st code n L b bs F (Q : unit -> cstate -> Prop) : run st0 st code n L (b :: bs) F -> 0 <= slot ->
  (forall s, run st0 s code n L (Block ((x, slot) :: vars b) (funs b) (of_function b) :: bs) F -> Q tt s) ->
  does (add_object x slot) st Q.
Proof.
  intros R P H. eapply does_weaken; [eapply does_object; [apply (run_self _ _ _ _ _ _ _ R)|exact P]|]. intros [] s K. apply H.
  pose proof (run_then _ _ _ _ _ _ _ _ _ _ _ _ R K) as X. rewrite app_nil_r in X. exact X.
Qed.

(** What the recursive calls do. *)
Record sub (rec : task -> CM Z) : Prop := {
  sub_compound : forall e ref st bs, good e = true -> 0 <= locals_length st -> ok st bs ->
    does (rec (Compound (tree e) ref)) st (fun i s => exists code n' L' bs', since st s code n' L' bs' /\ rooted bs bs' /\
      forall ids, agrees (symbols_of s) ids ->
        if ref then gcomp ids True (fv bs) (locals_length st) (label_number st) e code n' L' /\ i = callee_slot (fv bs) e n'
        else garg ids True (fv bs) (locals_length st) (label_number st) e code n' L' i);
  sub_form : forall e l st bs, good e = true -> tree e = AstExpression l -> 0 <= locals_length st -> ok st bs ->
    does (rec (Form l)) st (fun _ s => exists code n' L' bs', since st s code n' L' bs' /\ rooted bs bs' /\
      forall ids, agrees (symbols_of s) ids -> gcomp ids True (fv bs) (locals_length st) (label_number st) e code n' L');
  sub_noscope : forall b st blk r, forallb good_item b = true -> 0 <= locals_length st -> ok st (blk :: r) ->
    does (rec (Noscope (map item_tree b))) st (fun _ s => exists code new n' L',
      since st s code n' L' (Block (new ++ vars blk) (funs blk) (of_function blk) :: r) /\
      forall ids, agrees (symbols_of s) ids ->
        gcomp_items ids True (fv (blk :: r)) (locals_length st) (label_number st) b code new n' L');
  sub_progn : forall b st bs, forallb good_item b = true -> 0 <= locals_length st -> ok st bs ->
    does (rec (Progn (map item_tree b))) st (fun _ s => exists code n' L' bs', since st s code n' L' bs' /\ rooted bs bs' /\
      forall ids, agrees (symbols_of s) ids -> gcomp ids True (fv bs) (locals_length st) (label_number st) (EScope b) code n' L')
}.

Section Subs.
  Variable rec : task -> CM Z.
  Hypothesis S : sub rec.
  Variables (st0 st : cstate) (code : list ainstr) (n L : Z) (bs : list block) (F : (bytes -> Z) -> Prop).
  Hypothesis R : run st0 st code n L bs F.
  Hypothesis P : 0 <= n.

  Lemma r_here : ok st bs /\ locals_length st = n /\ label_number st = L.
  Proof. destruct R as [[A B C D E] G]. auto. Qed.

  Lemma r_comp e (Q : Z -> cstate -> Prop) : good e = true ->
    (forall s code' n' L' bs', rooted bs bs' -> n + 1 <= n' ->
       run st0 s (code ++ code') n' L' bs' (fun ids => F ids /\ gcomp ids True (fv bs) n L e code' n' L') -> Q (callee_slot (fv bs) e n') s) ->
    does (rec (Compound (tree e) true)) st Q.
  Proof.
    intros G H. destruct r_here as [O [E1 E2]]. eapply does_weaken; [apply (sub_compound _ S e true st bs G); [lia|exact O]|].
    intros i s [code' [n' [L' [bs' [K [RT C]]]]]]. rewrite E1, E2 in C.
    pose proof (C (nameToValue (symbols_of s)) (fun x _ => eq_refl)) as [C1 ->].
    apply (H s code' n' L' bs' RT).
    - apply (proj1 (gcomp_height _ _)) in C1. lia.
    - apply run_know; [eapply run_then; eauto|intros ids A; apply C; exact A].
  Qed.
  Lemma r_arg e (Q : Z -> cstate -> Prop) : good e = true ->
    (forall i s code' n' L' bs', rooted bs bs' -> n <= n' ->
       run st0 s (code ++ code') n' L' bs' (fun ids => F ids /\ garg ids True (fv bs) n L e code' n' L' i) -> Q i s) ->
    does (rec (Compound (tree e) false)) st Q.
  Proof.
    intros G H. destruct r_here as [O [E1 E2]]. eapply does_weaken; [apply (sub_compound _ S e false st bs G); [lia|exact O]|].
    intros i s [code' [n' [L' [bs' [K [RT C]]]]]]. rewrite E1, E2 in C.
    apply (H i s code' n' L' bs' RT).
    - specialize (C (nameToValue (symbols_of s)) (fun x _ => eq_refl)). apply (proj1 (proj2 (gcomp_height _ _))) in C. lia.
    - apply run_know; [eapply run_then; eauto|exact C].
  Qed.
  Lemma r_form e l (Q : Z -> cstate -> Prop) : good e = true -> tree e = AstExpression l ->
    (forall i s code' n' L' bs', rooted bs bs' -> n + 1 <= n' ->
       run st0 s (code ++ code') n' L' bs' (fun ids => F ids /\ gcomp ids True (fv bs) n L e code' n' L') -> Q i s) ->
    does (rec (Form l)) st Q.
  Proof.
    intros G T H. destruct r_here as [O [E1 E2]]. eapply does_weaken; [apply (sub_form _ S e l st bs G T); [lia|exact O]|].
    intros i s [code' [n' [L' [bs' [K [RT C]]]]]]. rewrite E1, E2 in C.
    apply (H i s code' n' L' bs' RT).
    - specialize (C (nameToValue (symbols_of s)) (fun x _ => eq_refl)). apply (proj1 (gcomp_height _ _)) in C. lia.
    - apply run_know; [eapply run_then; eauto|exact C].
  Qed.
  Lemma r_progn b (Q : Z -> cstate -> Prop) : forallb good_item b = true ->
    (forall i s code' L' bs', rooted bs bs' ->
       run st0 s (code ++ code') (n + 1) L' bs' (fun ids => F ids /\ gcomp ids True (fv bs) n L (EScope b) code' (n + 1) L') -> Q i s) ->
    does (rec (Progn (map item_tree b))) st Q.
  Proof.
    intros G H. destruct r_here as [O [E1 E2]]. eapply does_weaken; [apply (sub_progn _ S b st bs G); [lia|exact O]|].
    intros i s [code' [n' [L' [bs' [K [RT C]]]]]]. rewrite E1, E2 in C.
    assert (n' = n + 1) as ->.
    { specialize (C (nameToValue (symbols_of s)) (fun x _ => eq_refl)). inversion C; subst. reflexivity. }
    apply (H i s code' L' bs' RT).
    apply run_know; [eapply run_then; eauto|exact C].
  Qed.
End Subs.
Lemma r_noscope rec (S : sub rec) st0 st code n L blk r F (Q : Z -> cstate -> Prop) b :
  run st0 st code n L (blk :: r) F -> 0 <= n -> forallb good_item b = true ->
  (forall i s code' new n' L', n + 1 <= n' ->
     run st0 s (code ++ code') n' L' (Block (new ++ vars blk) (funs blk) (of_function blk) :: r)
       (fun ids => F ids /\ gcomp_items ids True (fv (blk :: r)) n L b code' new n' L') -> Q i s) ->
  does (rec (Noscope (map item_tree b))) st Q.
Proof.
  intros R P G H. destruct (r_here _ _ _ _ _ _ _ R) as [O [E1 E2]].
  eapply does_weaken; [apply (sub_noscope _ S b st blk r G); [lia|exact O]|].
  intros i s [code' [new [n' [L' [K C]]]]]. rewrite E1, E2 in C.
  apply (H i s code' new n' L').
  - specialize (C (nameToValue (symbols_of s)) (fun x _ => eq_refl)). apply (proj2 (proj2 (proj2 (gcomp_height _ _)))) in C. lia.
  - apply run_know; [eapply run_then; eauto|exact C].
Qed.
End Named.
