(** Concrete histories of the allocator. *)
From Coq Require Import ZArith List Bool Lia.
From Verif Require Import M_Base M_Core M_Memory S_Memory P_Memory7.
Import ListNotations.
Open Scope Z_scope.

Inductive op := Ma (n : Z) | Fr (i : nat) | Re (i : nat) (n : Z) | Wr (i : nat) (j v : Z).
Definition rubbish : nat -> entry := fun _ => Entry 7 7 7 7 true false.
Definition requestb (n : Z) : bool := (0 <? n) && (n <? 2 ^ 64 - 8).

Definition one (o : op) (hs : list held) (m : arena) : option (list held * arena) :=
  match o with
  | Ma n =>
      if requestb n then
        match malloc rubbish n m with
        | (Ok p, m') => Some (Held p n (fun _ => None) :: hs, m')
        | _ => None
        end
      else None
  | Fr i =>
      match nth_error hs i with
      | Some h =>
          match free (Some (h_address h)) m with
          | (Ok tt, m') => Some (firstn i hs ++ skipn (S i) hs, m')
          | _ => None
          end
      | None => None
      end
  | Re i n =>
      match nth_error hs i with
      | Some h =>
          if requestb n then
            match realloc rubbish (Some (h_address h)) n m with
            | (Ok p, m') => Some (firstn i hs ++ Held p n (cut (h_bytes h) (h_size h)) :: skipn (S i) hs, m')
            | _ => None
            end
          else None
      | None => None
      end
  | Wr i j v =>
      match nth_error hs i with
      | Some h =>
          if (0 <=? j) && (j <? h_size h) then
            Some (firstn i hs ++ Held (h_address h) (h_size h) (put (h_bytes h) j v) :: skipn (S i) hs,
                  set_bytes m (store_byte (m_bytes m) (h_address h + j) v))
          else None
      | None => None
      end
  end.

Fixpoint several (os : list op) (hs : list held) (m : arena) : option (list held * arena) :=
  match os with
  | [] => Some (hs, m)
  | o :: r => match one o hs m with Some (hs', m') => several r hs' m' | None => None end
  end.

Lemma nth_parts : forall {A} (l : list A) i x, nth_error l i = Some x -> l = firstn i l ++ x :: skipn (S i) l.
Proof.
  induction l as [|y l IH]; intros [|i] x H; try discriminate.
  - injection H as ->. reflexivity.
  - cbn [firstn skipn app]. f_equal. apply IH. exact H.
Qed.

Lemma same_bytes : forall m, set_bytes m (m_bytes m) = m.
Proof. intros []. reflexivity. Qed.

Lemma one_history : forall ok o hs m hs' m', history_with ok hs m -> one o hs m = Some (hs', m') -> history_with ok hs' m'.
Proof.
  intros ok o hs m hs' m' H R. destruct o as [n|i|i n|i j v]; cbn [one] in R.
  - destruct (requestb n) eqn:Q; [|discriminate]. destruct (malloc rubbish n m) as [[p| | |] m1] eqn:E; try discriminate.
    injection R as <- <-. rewrite <- (same_bytes m1). eapply h_malloc; [exact H| |exact E|intros a _ _; reflexivity].
    unfold requestb in Q. apply andb_prop in Q. destruct Q as [Q1 Q2]. split; [apply Z.ltb_lt; exact Q1|apply Z.ltb_lt; exact Q2].
  - destruct (nth_error hs i) as [h|] eqn:N; [|discriminate].
    destruct (free (Some (h_address h)) m) as [[[]| | |] m1] eqn:E; try discriminate.
    injection R as <- <-. rewrite <- (same_bytes m1). rewrite (nth_parts _ _ _ N) in H.
    eapply h_free; [exact H|exact E|intros a _ _; reflexivity].
  - destruct (nth_error hs i) as [h|] eqn:N; [|discriminate]. destruct (requestb n) eqn:Q; [|discriminate].
    destruct (realloc rubbish (Some (h_address h)) n m) as [[p| | |] m1] eqn:E; try discriminate.
    injection R as <- <-. rewrite <- (same_bytes m1). rewrite (nth_parts _ _ _ N) in H.
    eapply h_realloc; [exact H| |exact E|intros a _ _; reflexivity].
    unfold requestb in Q. apply andb_prop in Q. destruct Q as [Q1 Q2]. split; [apply Z.ltb_lt; exact Q1|apply Z.ltb_lt; exact Q2].
  - destruct (nth_error hs i) as [h|] eqn:N; [|discriminate]. destruct ((0 <=? j) && (j <? h_size h)) eqn:Q; [|discriminate].
    injection R as <- <-. rewrite (nth_parts _ _ _ N) in H. eapply h_write; [exact H|]. lia.
Qed.

Lemma several_history : forall ok os hs m hs' m', history_with ok hs m -> several os hs m = Some (hs', m') -> history_with ok hs' m'.
Proof.
  intros ok. induction os as [|o os IH]; intros hs m hs' m' H R; cbn [several] in R; [injection R as <- <-; exact H|].
  destruct (one o hs m) as [[h1 m1]|] eqn:E; [|discriminate]. exact (IH _ _ _ _ (one_history _ _ _ _ _ _ H E) R).
Qed.

Definition fresh (size : Z) : arena :=
  match memory_init (fun _ => 0) size fit_best with Ok m => m | _ => Arena (fun _ => 0) 0 fit_best 0 0 [] 0 0 end.
Definition state (size : Z) (os : list op) : list held * arena :=
  match several os [] (fresh size) with Some x => x | None => ([], fresh size) end.

Lemma state_history : forall size os, 80 < size ->
  history (fst (state size os)) (snd (state size os)).
Proof.
  intros size os L.
  assert (H : history [] (fresh size)).
  { assert (E : memory_init (fun _ => 0) size fit_best = Ok (fresh size)).
    { unfold fresh, memory_init, entry_size. change (2 * 40) with 80.
      destruct (Z.ltb_spec size 80); [lia|]. destruct (Z.eqb_spec (size - 80) 0); [lia|]. reflexivity. }
    eapply h_start; [|exact E]. discriminate. }
  unfold state. destruct (several os [] (fresh size)) as [[hs m]|] eqn:E; [exact (several_history _ _ _ _ _ _ H E)|exact H].
Qed.

(** A client at work: the values written before a block moves are found afterwards. *)
Definition story := [Ma 8; Ma 30; Wr 0 5 77; Ma 8; Re 1 90; Fr 0; Ma 1].
Lemma ex_story :
  history (fst (state 1000 story)) (snd (state 1000 story)) /\
  map (fun h => (h_address h, h_size h, h_bytes h 5)) (fst (state 1000 story)) =
    [(0, 1, None); (416, 90, Some 77); (120, 8, None)] /\
  m_bytes (snd (state 1000 story)) 421 = 77.
Proof. split; [apply state_history; lia|]. split; vm_compute; reflexivity. Qed.

Lemma ex_spare : spare_entry (snd (state 1000 story)) /\ free_block (snd (state 1000 story)) (rounded 400).
Proof.
  split.
  - exists 4%nat. eexists. split; vm_compute; reflexivity.
  - exists 5%nat, 512, 488. split; [|vm_compute; discriminate].
    eexists. split; [vm_compute; reflexivity|]. repeat split.
Qed.

Lemma result : forall {A} (c : res A * arena) r, fst c = r -> c = (r, snd c).
Proof. intros A [x m] r <-. reflexivity. Qed.

(** A call that fails for want of room for a larger table leaves the table unprotected: the next
    call hands out the very bytes it is kept in. *)
Lemma failure_exposes_table : exists hs m junk n m1 p m2,
  history hs m /\ request n /\ malloc junk n m = (Err outOfMemory, m1) /\
  malloc junk n m1 = (Ok p, m2) /\ ~ apart p n (m_list m2) (table_size m2).
Proof.
  set (m1 := snd (malloc rubbish 8 (snd (state 96 [])))).
  exists (fst (state 96 [])), (snd (state 96 [])), rubbish, 8, m1, 0, (snd (malloc rubbish 8 m1)).
  split; [apply state_history; lia|]. split; [split; lia|].
  split; [apply result; vm_compute; reflexivity|]. split; [apply result; vm_compute; reflexivity|].
  vm_compute. intros [X|X]; apply X; reflexivity.
Qed.

(** Freeing the block at the end of the arena reads entry -1 of the table. *)
Lemma free_last : exists hs h m, history hs m /\ In h hs /\ fst (free (Some (h_address h)) m) = UB.
Proof.
  exists (fst (state 136 [Ma 8])), (Held 120 8 (fun _ => None)), (snd (state 136 [Ma 8])).
  split; [apply state_history; lia|]. split; [apply (nth_error_In _ 0); vm_compute; reflexivity|vm_compute; reflexivity].
Qed.

(** So does the fourth request for 8 bytes in an arena of 336 bytes. *)
Lemma malloc_last : exists hs m junk n, history hs m /\ request n /\ fst (malloc junk n m) = UB.
Proof.
  exists (fst (state 336 [Ma 8; Ma 8; Ma 8])), (snd (state 336 [Ma 8; Ma 8; Ma 8])), rubbish, 8.
  split; [apply state_history; lia|]. split; [split; lia|vm_compute; reflexivity].
Qed.

(** A block that is moved is copied with the size of the block it was merged into, which can
    reach beyond the arena, although neither this block nor the table is the last one. *)
Lemma realloc_beyond : exists hs h m junk n, history hs m /\ In h hs /\ request n /\
  fst (realloc junk (Some (h_address h)) n m) = UB /\
  h_address h + rounded (h_size h) < m_size m /\ m_list m + table_size m < m_size m.
Proof.
  set (os := [Ma 8; Ma 8; Ma 8; Fr 2; Ma 104; Ma 8]).
  exists (fst (state 492 os)), (Held 376 104 (fun _ => None)), (snd (state 492 os)), rubbish, 152.
  split; [apply state_history; lia|]. split; [apply (nth_error_In _ 1); vm_compute; reflexivity|]. split; [split; lia|].
  split; [vm_compute; reflexivity|]. split; vm_compute; reflexivity.
Qed.

(** When realloc fails the old block is gone: the next request gets the same bytes. *)
Lemma known : forall {A} (c : res A * arena) r x m, c = (x, m) -> fst c = r -> c = (r, m).
Proof. intros A c r x m -> <-. reflexivity. Qed.

Lemma realloc_loses : exists hs h m junk n m1 p m2, history hs m /\ In h hs /\ request n /\
  realloc junk (Some (h_address h)) n m = (Err outOfMemory, m1) /\
  malloc junk 8 m1 = (Ok p, m2) /\ ~ apart p 8 (h_address h) (h_size h).
Proof.
  destruct (realloc rubbish (Some 0) 800 (snd (state 1000 story))) as [r m1] eqn:E.
  destruct (malloc rubbish 8 m1) as [q m2] eqn:F.
  assert (G : fst (malloc rubbish 8 m1) = Ok 0).
  { replace m1 with (snd (realloc rubbish (Some 0) 800 (snd (state 1000 story)))) by (rewrite E; reflexivity).
    vm_compute. reflexivity. }
  assert (K : fst (realloc rubbish (Some 0) 800 (snd (state 1000 story))) = Err outOfMemory) by (vm_compute; reflexivity).
  exists (fst (state 1000 story)), (Held 0 1 (fun _ => None)), (snd (state 1000 story)), rubbish, 800, m1, 0, m2.
  cbn [h_address h_size].
  split; [apply state_history; lia|]. split; [apply (nth_error_In _ 0); vm_compute; reflexivity|]. split; [split; lia|].
  split; [exact (known _ _ _ _ E K)|]. split; [exact (known _ _ _ _ F G)|].
  intros [X|X]; apply X; reflexivity.
Qed.

(** A block that has just been freed cannot always be had again. *)
Lemma free_not_again : exists hs h m m' junk, history hs m /\ In h hs /\
  free (Some (h_address h)) m = (Ok tt, m') /\ fst (malloc junk (h_size h) m') = Err outOfMemory.
Proof.
  set (os := [Ma 8; Ma 8; Fr 1; Ma 8; Ma 8]).
  destruct (free (Some 0) (snd (state 344 os))) as [r m'] eqn:E.
  assert (K : fst (free (Some 0) (snd (state 344 os))) = Ok tt) by (vm_compute; reflexivity).
  assert (G : fst (malloc rubbish 8 m') = Err outOfMemory).
  { replace m' with (snd (free (Some 0) (snd (state 344 os)))) by (rewrite E; reflexivity). vm_compute. reflexivity. }
  exists (fst (state 344 os)), (Held 0 8 (fun _ => None)), (snd (state 344 os)), m', rubbish.
  cbn [h_address h_size].
  split; [apply state_history; lia|]. split; [apply (nth_error_In _ 2); vm_compute; reflexivity|].
  split; [exact (known _ _ _ _ E K)|exact G].
Qed.

(** A request just below 2^64 bytes is granted with an empty block. *)
Lemma huge_request : exists hs m junk n p m' i, history hs m /\ n = 2 ^ 64 - 8 /\
  malloc junk n m = (Ok p, m') /\ is_block m' i p 0 true.
Proof.
  destruct (malloc rubbish (2 ^ 64 - 8) (snd (state 1000 story))) as [r m'] eqn:E.
  assert (K : fst (malloc rubbish (2 ^ 64 - 8) (snd (state 1000 story))) = Ok 8) by (vm_compute; reflexivity).
  assert (T : exists e, nth_error (m_table m') 0 = Some e /\ e_unlinked e = false /\ e_block e = 8 /\ e_size e = 0 /\ e_allocated e = true).
  { replace m' with (snd (malloc rubbish (2 ^ 64 - 8) (snd (state 1000 story)))) by (rewrite E; reflexivity).
    eexists. split; [vm_compute; reflexivity|]. repeat split. }
  exists (fst (state 1000 story)), (snd (state 1000 story)), rubbish, (2 ^ 64 - 8), 8, m', 0%nat.
  split; [apply state_history; lia|]. split; [reflexivity|].
  split; [exact (known _ _ _ _ E K)|]. exact T.
Qed.

(** Best fit does not take the smallest block that suffices. *)
Lemma best_fit : exists hs m junk n p m' i s j q t, history hs m /\ m_fit m = fit_best /\ request n /\
  malloc junk n m = (Ok p, m') /\ is_block m i p s false /\
  is_block m j q t false /\ rounded n <= t < s.
Proof.
  set (os := [Ma 8; Ma 200; Ma 8; Ma 24; Ma 8; Fr 1; Fr 2; Ma 800; Fr 1]).
  destruct (malloc rubbish 200 (snd (state 2000 os))) as [r m'] eqn:E.
  assert (K : fst (malloc rubbish 200 (snd (state 2000 os))) = Ok 136) by (vm_compute; reflexivity).
  exists (fst (state 2000 os)), (snd (state 2000 os)), rubbish, 200, 136, m', 4%nat, 408, 1%nat, 1712, 288.
  split; [apply state_history; lia|]. split; [vm_compute; reflexivity|]. split; [split; lia|].
  split; [exact (known _ _ _ _ E K)|].
  split; [eexists; split; [vm_compute; reflexivity|]; repeat split|].
  split; [eexists; split; [vm_compute; reflexivity|]; repeat split|].
  vm_compute. split; [discriminate|reflexivity].
Qed.

(** A block of the story can be freed and had again; no block in use starts at 8. *)
Lemma ex_free_again : exists hs1 h hs2 m m',
  history (hs1 ++ h :: hs2) m /\ free (Some (h_address h)) m = (Ok tt, m') /\ request 1 /\ 1 <= h_size h /\ spare_entry m'.
Proof.
  destruct (free (Some 0) (snd (state 1000 story))) as [r m'] eqn:E.
  assert (K : fst (free (Some 0) (snd (state 1000 story))) = Ok tt) by (vm_compute; reflexivity).
  exists [], (Held 0 1 (fun _ => None)), (tl (fst (state 1000 story))), (snd (state 1000 story)), m'.
  cbn [h_address h_size app].
  split.
  { replace (Held 0 1 (fun _ => None) :: tl (fst (state 1000 story))) with (fst (state 1000 story))
      by (vm_compute; reflexivity). apply state_history; lia. }
  split; [exact (known _ _ _ _ E K)|]. split; [split; lia|]. split; [lia|].
  replace m' with (snd (free (Some 0) (snd (state 1000 story)))) by (rewrite E; reflexivity).
  exists 4%nat. eexists. split; vm_compute; reflexivity.
Qed.

Lemma ex_dangling : not_a_block (snd (state 1000 story)) 8.
Proof.
  intros i n [e [N [U [B [_ A]]]]].
  assert (F : forallb (fun e => e_unlinked e || negb (e_block e =? 8) || negb (e_allocated e)) (m_table (snd (state 1000 story))) = true)
    by (vm_compute; reflexivity).
  rewrite forallb_forall in F. specialize (F e (nth_error_In _ _ N)). rewrite U, A, B in F. discriminate.
Qed.

(** The next-fit strategy always starts behind entry 0. Once the table has moved away from it, entry 0
    is freed and merged into the block behind it, and the search starts at a block that is no longer
    there: two blocks get the same bytes. *)
Definition next_fresh (size : Z) : arena :=
  match memory_init (fun _ => 0) size fit_next with Ok m => m | _ => Arena (fun _ => 0) 0 fit_next 0 0 [] 0 0 end.
Definition next_state size os := match several os [] (next_fresh size) with Some x => x | None => ([], next_fresh size) end.
Lemma next_history size os : 80 < size -> history_with (fun f => f = fit_next) (fst (next_state size os)) (snd (next_state size os)).
Proof.
  intros L. assert (H : history_with (fun f => f = fit_next) [] (next_fresh size)).
  { assert (E : memory_init (fun _ => 0) size fit_next = Ok (next_fresh size)).
    { unfold next_fresh, memory_init, entry_size. change (2 * 40) with 80.
      destruct (Z.ltb_spec size 80); [lia|]. destruct (Z.eqb_spec (size - 80) 0); [lia|]. reflexivity. }
    eapply h_start; [|exact E]. reflexivity. }
  unfold next_state. destruct (several os [] (next_fresh size)) as [[hs m]|] eqn:E; [exact (several_history _ _ _ _ _ _ H E)|exact H].
Qed.
Definition next_story := [Ma 8; Ma 100; Ma 200; Fr 2; Fr 1; Ma 8; Ma 300].
Lemma next_overlap : exists hs m h h', history_with (fun f => f = fit_next) (h :: h' :: hs) m /\
  ~ apart (h_address h) (h_size h) (h_address h') (h_size h').
Proof.
  exists (tl (tl (fst (next_state 1000 next_story)))), (snd (next_state 1000 next_story)), (Held 0 300 (fun _ => None)), (Held 0 8 (fun _ => None)). split.
  - replace (_ :: _ :: _) with (fst (next_state 1000 next_story)) by (vm_compute; reflexivity). apply next_history. lia.
  - intros [X|X]; cbn [h_address h_size] in X; lia.
Qed.

(** A block can even become its own successor, and the search does not end. *)
Definition next_circle := [Ma 300; Ma 200; Ma 8; Fr 2; Fr 0; Fr 0; Ma 8; Ma 100].
Lemma circle_endless t i e n : array_get t i = Ok e -> i <> -1 -> e_allocated e = true -> e_next e = i -> forall fuel, find_from fuel t i n = NoFuel.
Proof.
  intros G N A L. induction fuel as [|fuel IH]; [reflexivity|]. cbn [find_from]. destruct (Z.eqb_spec i (-1)); [contradiction|].
  rewrite G. cbn [bind]. rewrite A. cbn [negb andb]. rewrite L. exact IH.
Qed.
Lemma next_endless : exists hs m e, history_with (fun f => f = fit_next) hs m /\ spare_entry m /\
  array_get (m_table m) (m_recent m) = Ok e /\ fst (malloc rubbish 8 m) = NoFuel /\
  forall fuel, find_from fuel (m_table m) (e_next e) (rounded 8) = NoFuel.
Proof.
  set (s := next_state 3000 next_circle).
  exists (fst s), (snd s). eexists. split; [apply next_history; lia|].
  split; [exists 2%nat; eexists; split; vm_compute; reflexivity|]. split; [vm_compute; reflexivity|]. split; [vm_compute; reflexivity|].
  cbn [e_next]. eapply circle_endless; [vm_compute; reflexivity|discriminate|reflexivity|reflexivity].
Qed.
