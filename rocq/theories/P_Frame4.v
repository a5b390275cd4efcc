(** The states of the compiler and the code it emits (C58). *)
From Coq Require Import ZArith List Bool Lia Arith ZifyBool ZifyNat.
From Verif Require Import M_Base M_Trie M_Instr M_Asm M_Parser M_Symbol M_Scope M_Compile S_Symbol S_Compile S_Frame S_Scope
  P_Symbol P_Scope P_Frame P_Frame3.
Import ListNotations.
Open Scope Z_scope.

Lemma cbind_ok {A B} (m : CM A) (f : A -> CM B) s r s' : cbind m f s = Ok (r, s') ->
  exists a s1, m s = Ok (a, s1) /\ f a s1 = Ok (r, s').
Proof. unfold cbind. destruct (m s) as [[a s1]| | |]; try discriminate. eauto. Qed.
Ltac cinv H a s1 E := apply cbind_ok in H as (a & s1 & E & H).
Ltac cloc H n := let E := fresh in apply cbind_ok in H as (n & ? & E & H); unfold locals in E; injection E as <- <-.

(** The code a computation adds: to the function being compiled, and to the main program. *)
Definition codes (c A : list ainstr) (s s' : cstate) : Prop :=
  match body s with
  | None => body s' = None /\ assembly s' = assembly s ++ c /\ A = []
  | Some x => body s' = Some (x ++ c) /\ assembly s' = assembly s ++ A
  end.
Lemma codes_app c A d B s s1 s2 : codes c A s s1 -> codes d B s1 s2 -> codes (c ++ d) (A ++ B) s s2.
Proof.
  unfold codes. destruct (body s) as [x|].
  - intros [E1 E2] H. rewrite E1 in H. destruct H as [H1 H2]. rewrite H1, H2, E2, <- !app_assoc. auto.
  - intros (E1 & E2 & ->) H. rewrite E1 in H. destruct H as (H1 & H2 & ->). rewrite H2, E2, <- app_assoc. auto.
Qed.
Lemma codes_nil s s' : body s' = body s -> assembly s' = assembly s -> codes [] [] s s'.
Proof. unfold codes. intros -> ->. destruct (body s); rewrite !app_nil_r; auto. Qed.
Lemma codes_none c A s s' : codes c A s s' -> (body s' = None <-> body s = None).
Proof. unfold codes. destruct (body s); intros [-> _]; [split; discriminate|tauto]. Qed.
Lemma codes_add a s s' : codes [a] [] s (set_locals_length (add_code a s) s').
Proof. unfold codes, add_code. destruct (body s); cbn; rewrite ?app_nil_r; auto. Qed.

Section States.
  Variable cfg : config.

  (** The function being compiled: its number, the slot of its first argument, the height of the main
      program, and the frames around it. *)
  Record ctx := Ctx { own : Z; base : Z; main : Z; outer : list (Z * Z) }.

  Record ready (x : ctx) (bs : list block) (s : cstate) : Prop := Ready {
    r_stands : Forall2 stands (scopes s) bs;
    r_uvs : uvs_ok (outer x) (scopes s);
    r_base : 0 <= base x <= locals_length s;
    r_main : 0 <= main x;
    r_label : 0 <= label_number s;
    r_own : body s = None -> own x = -1;
    r_syms : consistent (symbols_of s);
    r_known : forall n, In n (callbacks cfg) -> In n (sym_array (symbols_of s)) }.

  Record moves (x : ctx) (c A : list ainstr) (bs' : list block) (s s' : cstate) : Prop := Moves {
    mv_codes : codes c A s s';
    mv_ready : ready x bs' s';
    mv_counts : counts_le (scopes s) (scopes s') }.
  Lemma moves_app x c A d B bs1 bs2 s s1 s2 : moves x c A bs1 s s1 -> moves x d B bs2 s1 s2 -> moves x (c ++ d) (A ++ B) bs2 s s2.
  Proof. intros [] []. split; [eapply codes_app; eauto|auto|eapply counts_trans; eauto]. Qed.

  Definition size (x : ctx) (s : cstate) : Z := locals_length s - base x.
  Definition stretch (x : ctx) (c A : list ainstr) (s s' : cstate) : Prop :=
    piece (own x) (main x) (size x s) c A (size x s') (label_number s) (label_number s') (taken (scopes s')).
  Definition val (x : ctx) (bs' : list block) (s s' : cstate) : Prop :=
    exists c A, moves x c A bs' s s' /\ stretch x c A s s'.
  Lemma val_trans x bs1 bs2 s s1 s2 : val x bs1 s s1 -> val x bs2 s1 s2 -> val x bs2 s s2.
  Proof.
    intros (c & A & M1 & P1) (d & B & M2 & P2). exists (c ++ d), (A ++ B). split; [eapply moves_app; eauto|].
    eapply piece_app; eauto. apply counts_taken. exact (mv_counts _ _ _ _ _ _ M2).
  Qed.
  Lemma val_ready x bs' s s' : val x bs' s s' -> ready x bs' s'.
  Proof. intros (c & A & M & _). exact (mv_ready _ _ _ _ _ _ M). Qed.
  Lemma val_counts x bs' s s' : val x bs' s s' -> counts_le (scopes s) (scopes s').
  Proof. intros (c & A & M & _). exact (mv_counts _ _ _ _ _ _ M). Qed.

  (** A change of state without code. *)
  Lemma quiet x bs bs' s s' : ready x bs s -> ready x bs' s' -> body s' = body s -> assembly s' = assembly s ->
    label_number s' = label_number s -> locals_length s' = locals_length s -> counts_le (scopes s) (scopes s') -> val x bs' s s'.
  Proof.
    intros R R' B A L N C. exists [], []. split.
    - split; [apply codes_nil; auto|auto|auto].
    - unfold stretch, size. rewrite L, N. destruct R. apply piece_nil; lia.
  Qed.
  Lemma val_refl x bs s : ready x bs s -> val x bs s s.
  Proof. intros R. eapply quiet; eauto. apply counts_refl. Qed.

  (** An instruction. *)
  Lemma emit_moves x bs s a n : ready x bs s -> base x <= n -> moves x [a] [] bs s (set_locals_length (add_code a s) n).
  Proof.
    intros R B. pose proof (codes_add a s n) as C. split; [exact C| |].
    - apply codes_none in C. destruct R. unfold add_code in *. destruct (body s); constructor; cbn in *; auto; try lia; intros E; discriminate.
    - unfold add_code. destruct (body s); apply counts_refl.
  Qed.
  Lemma add_code_scopes a s : scopes (add_code a s) = scopes s.
  Proof. unfold add_code. destruct (body s); reflexivity. Qed.
  Lemma add_code_label a s : label_number (add_code a s) = label_number s.
  Proof. unfold add_code. destruct (body s); reflexivity. Qed.
  Lemma emit_val x bs s a d r s' : ready x bs s -> emit a d s = Ok (r, s') -> base x <= locals_length s + d ->
    match a with ALabel _ => False | _ => True end ->
    (forall L C, taken (scopes s) <= C (own x) -> fine L C (own x) (size x s) a (size x s + d)) ->
    val x bs s s' /\ locals_length s' = locals_length s + d.
  Proof.
    intros R E B N F. unfold emit, cmod in E. injection E as _ <-. split; [|reflexivity].
    exists [a], []. split; [apply emit_moves; auto|]. unfold stretch.
    cbn [set_locals_length label_number scopes locals_length size]. rewrite add_code_scopes, add_code_label.
    unfold size. cbn [locals_length set_locals_length]. replace (locals_length s + d - base x) with (size x s + d) by (unfold size; lia).
    destruct R. apply piece_step; unfold size in *; try lia; [|intros L C KC; apply F; lia].
    intros k ->. exact N.
  Qed.
  (** Calls: the arguments are gone. *)
  Lemma emit_call x bs s a d n r r' s1 s' : ready x bs s -> emit a d s = Ok (r, s1) -> locals_to n s1 = Ok (r', s') -> base x <= n ->
    match a with ALabel _ => False | _ => True end ->
    (forall L C, taken (scopes s) <= C (own x) -> fine L C (own x) (size x s) a (n - base x)) ->
    val x bs s s' /\ locals_length s' = n.
  Proof.
    intros R E E' B N F. unfold emit, locals_to, cmod in *. injection E as _ <-. injection E' as _ <-. split; [|reflexivity].
    exists [a], []. split.
    - pose proof (emit_moves x bs s a n R B) as M. destruct M as [M1 M2 M3]. split; auto. 
    - unfold stretch. cbn [set_locals_length label_number scopes locals_length]. rewrite add_code_scopes, add_code_label.
      unfold size at 2. cbn [locals_length set_locals_length].
      destruct R. apply piece_step; unfold size in *; try lia; [|intros L C KC; apply F; lia].
      intros k ->. exact N.
  Qed.
End States.
