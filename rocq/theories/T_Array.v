(** C02, C03: dynamic arrays. *)
From Coq Require Import ZArith List Bool.
From Verif Require Import M_Base M_Array S_Seq P_Array.
Import ListNotations.
Open Scope nat_scope.

(** Any history of calls on two arrays has the results and the final contents of the same
    history on plain sequences, and the contents lie inside the allocated memory.  Missing
    from the full claim: appending an empty array to an empty one under the fit strategy,
    and calls whose allocation fails (both refuted below). *)
Theorem C02_array_is_sequence_partial :
  forall sz s t, 0 < sz -> forall ops, admissible sz s t [] [] ops ->
  exists a b,
    run true (array_init sz s) (array_init sz t) ops = Some (a, b, snd (seq_run sz [] [] ops)) /\
    holds a (fst (fst (seq_run sz [] [] ops))) /\ holds b (snd (fst (seq_run sz [] [] ops))).
Proof. exact history_ok. Qed.
Print Assumptions C02_array_is_sequence_partial.

(** Appending an empty array to an empty one reports an error under the fit strategy. *)
Theorem C02_append_empty_refuted :
  exists sz s t ops,
    0 < sz /\ Forall (fun x => op_sized sz (snd x)) ops /\
    option_map snd (run true (array_init sz s) (array_init sz t) ops) <> Some (snd (seq_run sz [] [] ops)).
Proof. exact append_empty_refuted. Qed.
Print Assumptions C02_append_empty_refuted.

(** A push that reports outOfMemory loses the elements: reading one then dereferences null. *)
Theorem C02_failed_push_refuted :
  exists sz s e0 e a, length e0 = sz /\ length e = sz /\
    pushElement true (array_init sz s) (Some e0) = Ret a tt /\ holds a [e0] /\
    exists a', pushElement false a (Some e) = Fail a' outOfMemory /\
      elements_length a' = 1 /\ get a' 0 = Undef.
Proof. exact failed_push_refuted. Qed.
Print Assumptions C02_failed_push_refuted.

Example C02_example :
  let ops := [(true, Push [Some 1%Z; Some 2%Z]); (true, PushNull); (false, PushN [[Some 3%Z; Some 4%Z]]);
              (true, Append); (true, Set_ [Some 9%Z; Some 9%Z] 1); (true, Get 7); (true, PopN 2);
              (false, Pop); (false, Pop)] in
  admissible 2 Double Fit [] [] ops /\
  seq_run 2 [] [] ops =
    ([[Some 1%Z; Some 2%Z]], [],
     [ROk []; ROk []; ROk []; ROk []; ROk []; RErr invalidValue;
      ROk [Some 9%Z; Some 9%Z; Some 3%Z; Some 4%Z]; ROk [Some 3%Z; Some 4%Z]; RErr bufferUnderflow]).
Proof.
  split; [|reflexivity]. simpl.
  repeat match goal with
         | |- _ /\ _ => split
         | |- ~ _ => intros (? & _); discriminate
         | _ => idtac
         end; auto; intros (_ & ? & _); discriminate.
Qed.

(** dl_array_copy makes the destination an alias of the source: the copy's memory is the
    source's block, and the freshly allocated block belongs to nobody. *)
Theorem C03_copy_shares_buffer :
  forall s dst src s' dst', array_copy s dst src = Some (s', dst') ->
  dst' = src /\ h_alloc dst' = h_alloc src /\ length s' = S (length s) /\ h_block dst' <> length s.
Proof. exact copy_aliases. Qed.
Print Assumptions C03_copy_shares_buffer.

Theorem C03_copy_refuted :
  exists s dst src s' dst' s'' i e,
    h_block dst <> h_block src /\ h_alloc dst <> h_alloc src /\
    array_copy s dst src = Some (s', dst') /\
    h_get s' dst' i <> Some e /\
    h_set s' src i e = Some s'' /\ h_get s'' dst' i = Some e /\
    h_alloc dst' <> h_alloc dst.
Proof. exact copy_refuted. Qed.
Print Assumptions C03_copy_refuted.
