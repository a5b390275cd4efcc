(** Host programs: examples, and calls that do not do what they promise. *)
From Coq Require Import ZArith List Lia Arith Bool.
Import ListNotations.
From Verif Require Import M_Base M_Heap M_Instr M_VM M_Host S_Heap S_VM S_Num S_Globals S_Types S_Data S_Host X_Machine P_Data P_Data3 X_Types X_Data P_Host P_Host2 P_Host3.
Open Scope Z_scope.

(** A callback that answers with the next integer, or with an error if it is not given one. *)
Definition ex_client : client :=
  Call HCopySignedInteger (fun r =>
    match r with
    | inr (Number n) => Call HPushInteger (fun _ => Call (HSetInteger (if n <? 2 ^ 62 then n + 1 else 0)) (fun _ => Return None))
    | _ => Return (Some invalidValue)
    end).
(** One that goes on as long as it is given integers. *)
CoFixpoint ex_loop : client :=
  Call HPop (fun r => match r with inl e => Return (Some e) | inr _ => Call (HIs 2) (fun _ => ex_loop) end).
Definition unfolded (p : client) : client := match p with Return e => Return e | Call c k => Call c k end.
Lemma unfolded_same p : p = unfolded p.
Proof. destruct p; reflexivity. Qed.
Lemma ex_loop_gentle : gentle ex_loop.
Proof.
  cofix CO. rewrite (unfolded_same ex_loop). simpl. constructor; [exact I|].
  intros [e|a]; constructor; [exact I|]. intros _. exact CO.
Qed.

Definition ex_clients (c : Z) : client := if c =? 0 then ex_client else ex_loop.
Lemma copied_integer v n v' : typed v -> perform HCopySignedInteger v = (Ok (Number n), v') -> machine_integer n.
Proof.
  intros T. simpl. unfold host_copySignedInteger, get_top, mbind, mget, mret, merr.
  destruct (stack v) as [|o s] eqn:Es; [intros E; discriminate|]. destruct o; intros E; try discriminate. injection E as <- _.
  destruct (ty_stack _ _ T (OInteger n0)) as [_ W]; [rewrite Es; left; reflexivity|]. exact W.
Qed.
Lemma ex_client_careful v : typed v -> careful v ex_client.
Proof.
  intros T. constructor; [exact I| |constructor]. intros a v' E.
  destruct a as [|n|f|b l]; try (constructor; fail). apply copied_integer in E; auto.
  assert (machine_integer (if n <? 2 ^ 62 then n + 1 else 0)) as M by (unfold machine_integer in *; destruct (Z.ltb_spec n (2 ^ 62)); lia).
  constructor; [exact I| |]; intros; (constructor; [exact M|intros; constructor|intros; constructor]).
Qed.
Lemma ex_clients_careful : forall c v, typed v -> globals_ok v -> careful v (ex_clients c).
Proof.
  intros c v T _. unfold ex_clients. destruct (c =? 0); [apply ex_client_careful; auto|]. apply gentle_careful. exact ex_loop_gentle.
Qed.

(** * Calls that are undefined, or leave the machine ill typed *)

Lemma set_global_undefined v k : stack v <> [] -> perform (HSetGlobal k) v = (UB, v).
Proof. intros H. simpl. unfold host_setGlobal, mbind, mget. destruct (stack v); [contradiction|reflexivity]. Qed.

Lemma first_undefined v o : on_top v o ->
  match o with OList _ | OVector _ _ | OString _ _ _ | OClosure _ _ _ _ _ | OCons _ _ => False | _ => True end ->
  perform HPushFirst v = (UB, v).
Proof.
  intros Ho H. simpl. unfold host_pushFirst, mbind. rewrite (top_run _ _ Ho). destruct o; try contradiction; reflexivity.
Qed.

Definition ex_one_free : vm :=
  VM [OBytecode 1 (Some [97]); ONone] [1%nat] [OInteger 1] [None] [] [] [] [UARef None 0] (Some 0%nat) 20 2 [].
Lemma composite_corrupts : exists v v', sound 0 v /\ length (free v) = 1%nat /\
  perform (HPushComposite 20) v = (Ok Nothing, v') /\ ~ typed v'.
Proof.
  exists ex_one_free. eexists. split; [apply soundb_ok; vm_compute; reflexivity|]. split; [reflexivity|].
  split; [vm_compute; reflexivity|]. intros T.
  match type of T with typed ?w => assert (forall o, nth_error (objects w) 1 = Some o -> well_typed w o) as W0
    by (intros o; apply (ty_objects _ _ T 1%nat); [apply liveb_ok; reflexivity|tauto]) end.
  pose proof (W0 _ eq_refl) as [W _]. destruct (W _ eq_refl) as [_ [o [E F]]]. injection E as <-. exact F.
Qed.

Lemma vector_undefined : exists v', all_ok [HPushVector 1] ex_rich [Nothing] v' /\ perform (HPushElement 0) v' = (UB, v').
Proof. eexists. split; [econstructor; [vm_compute; reflexivity|constructor]|vm_compute; reflexivity]. Qed.
Definition ex_full : vm :=
  VM [OBytecode 1 (Some [97]); OInteger 4; OCons (Some 1%nat) None] [] [OList (Some 2%nat)] [None] [] [] [] [UARef None 0] (Some 0%nat) 20 2 [].
Lemma vector_missing : exists v v', sound 0 v /\ perform (HPushVector 1) v = (Ok Nothing, v') /\ stack v' = stack v.
Proof. exists ex_full. eexists. split; [apply soundb_ok; vm_compute; reflexivity|]. split; [vm_compute; reflexivity|reflexivity]. Qed.

(** * Names, elements and lists *)

Lemma compressed_name v id : all_ok [HPushCompressedSymbol id; HCopySymbolName] v [Nothing; Text None None] (pushed (OSymbol id None) v).
Proof. repeat econstructor. Qed.

(** The list (4 ()). *)
Definition ex_lists : vm := set_stack (set_ustack ex_rich [None; None; Some 8%nat]) [OList (Some 1%nat); OInteger 9; OInteger 3].
Lemma ex_listed_sound : sound 0 ex_lists.
Proof. apply soundb_ok. vm_compute. reflexivity. Qed.
Lemma list_element : exists v v' o, sound 0 v /\ on_top v (OList (Some 1%nat)) /\
  list_value (objects v) (Some 1%nat) [OInteger 4; OList None] /\
  perform (HPushElement 0) v = (Ok Nothing, v') /\ on_top v' o /\ ~ first_class o.
Proof.
  exists ex_lists. eexists. eexists. split; [exact ex_listed_sound|]. split; [reflexivity|]. split; [exact ex_list|].
  split; [vm_compute; reflexivity|]. split; [reflexivity|]. simpl. tauto.
Qed.
Lemma list_past_end : exists v, sound 0 v /\ on_top v (OList (Some 1%nat)) /\
  list_value (objects v) (Some 1%nat) [OInteger 4; OList None] /\ perform (HPushElement 2) v = (UB, v).
Proof.
  exists ex_lists. split; [exact ex_listed_sound|]. split; [reflexivity|]. split; [exact ex_list|]. vm_compute. reflexivity.
Qed.
Definition ex_set_list : vm := set_stack (set_ustack ex_rich [None; None; Some 8%nat]) [OInteger 9; OList (Some 1%nat); OInteger 3].
Lemma list_set_element : exists v v', sound 0 v /\ at_index v (-2) (OList (Some 1%nat)) /\ on_top v (OInteger 9) /\
  list_value (objects v) (Some 1%nat) [OInteger 4; OList None] /\
  perform (HSetElement 1 (-2)) v = (Ok Nothing, v') /\
  list_value (objects v') (Some 1%nat) [OInteger 9; OList None].
Proof.
  exists ex_set_list. eexists. split; [apply soundb_ok; vm_compute; reflexivity|].
  split; [right; split; [lia|reflexivity]|]. split; [reflexivity|]. split; [exact ex_list|].
  split; [vm_compute; reflexivity|].
  eapply list_cons; [reflexivity|apply shows_value; simpl; auto; reflexivity|].
  eapply list_cons; [reflexivity|apply shows_nil|]. constructor.
Qed.
Definition ex_tail : vm := set_stack (set_ustack ex_rich [None; Some 8%nat]) [OString (Some 6%nat) 1 2; OInteger 3].
Lemma string_element_wrong : exists v, sound 0 v /\ on_top v (OString (Some 6%nat) 1 2) /\
  string_value (objects v) (OString (Some 6%nat) 1 2) [105] /\
  perform (HPushElement 0) v = (Ok Nothing, pushed (OInteger 104) v).
Proof.
  exists ex_tail. split; [apply soundb_ok; vm_compute; reflexivity|]. split; [reflexivity|]. split; [exact ex_string|]. vm_compute. reflexivity.
Qed.
Lemma set_element_ignored v i j x : typed v -> on_top v x -> at_index v j (OInteger 5) -> free v <> [] ->
  exists v', perform (HSetElement i j) v = (Ok Nothing, v') /\ altered nothing v v'.
Proof.
  intros T Hx Hj F. pose proof (tot_alloc_in False v x T (top_in _ _ Hx) (fun E => F E)) as H. unfold tot in H.
  simpl. unfold host_setElement, mbind. rewrite (top_run _ _ Hx). destruct (alloc x v) as [[a|e| |] v1]; try contradiction; [|destruct H; contradiction].
  destruct H as [n [-> [T1 [N1 _]]]]. rewrite (index_get v1 j (OInteger 5)) by (eapply index_new; eauto).
  eexists. split; [reflexivity|]. apply altered_more; try apply N1. eapply more_new; [apply more_refl|eauto].
Qed.

(** A host that builds the list (1 2) from its end: the pair holds the right values, yet the list has
    one element. *)
Definition build_list : list call :=
  [HPushCons; HPushInteger; HSetInteger 2; HSetFirst (-2); HPop;
   HPushCons; HPushInteger; HSetInteger 1; HSetFirst (-2); HPop; HPush (-2); HSetRest (-2); HPop].
Lemma list_length_wrong : exists v' a l m, all_ok (build_list ++ [HLength]) ex_rich a v' /\
  on_top v' (OList (Some l)) /\ pair v' l (OInteger 1) (OList (Some m)) /\ pair v' m (OInteger 2) (OList None) /\
  last a Nothing = Number 1.
Proof.
  do 4 eexists. split; [unfold build_list, app; repeat (econstructor; [vm_compute; reflexivity|]); constructor|].
  split; [reflexivity|]. split; [|split; [|reflexivity]].
  - do 2 eexists. split; [reflexivity|]. split; apply shows_value; try reflexivity; exact I.
  - do 2 eexists. split; [reflexivity|]. split; [apply shows_value; [reflexivity|exact I]|apply shows_nil].
Qed.

Definition ex_short : vm := set_stack (set_ustack ex_rich [None; Some 8%nat]) [OVector (Some 4%nat) 1; OInteger 3].
Lemma rest_stuck : exists v, sound 0 v /\ on_top v (OVector (Some 4%nat) 1) /\
  vector_value v (OVector (Some 4%nat) 1) [OBool 1] /\ perform HPushRest v = (Ok Nothing, pushed (OVector (Some 4%nat) 1) v).
Proof.
  exists ex_short. split; [apply soundb_ok; vm_compute; reflexivity|]. split; [reflexivity|].
  split; [exists [OInteger 4; OBool 1]; split; [exact ex_vector|reflexivity]|]. vm_compute. reflexivity.
Qed.
