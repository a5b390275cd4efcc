(** Registered forms are found under their names (C78). *)
From Coq Require Import String Ascii ZArith List Bool Lia.
From Verif Require Import M_Base M_Trie M_Heap M_Symbol M_Parser M_Scope M_Compile M_Infer M_Link M_Init S_Map S_Compile S_Run S_Symbol S_Link S_Accept S_Init P_Trie P_Symbol P_Link.
Import ListNotations.
Open Scope Z_scope.

Record keeps {F} (fs : list (bytes * F)) (r : registered F) : Prop := {
  ke_wf : wf (r_trie r);
  ke_index : forall x, (latest fs x = None /\ trie_find (r_trie r) x = -1) \/
    exists i, trie_find (r_trie r) x = Z.of_nat i /\ nth_error (r_array r) i = latest fs x /\ latest fs x <> None }.

Lemma latest_app {F} (fs gs : list (bytes * F)) x : latest (fs ++ gs) x = match latest gs x with Some g => Some g | None => latest fs x end.
Proof.
  induction fs as [|[y f] r IH]; cbn [app latest]; [destruct (latest gs x); reflexivity|]. rewrite IH. destruct (latest gs x); reflexivity.
Qed.
Lemma none_keeps {F} : @keeps F [] none_registered.
Proof.
  constructor; [repeat constructor|]. intros x. left. split; [reflexivity|]. cbn [none_registered r_trie]. destruct x; reflexivity.
Qed.
Lemma register_keeps {F} (fs : list (bytes * F)) r f x : keeps fs r -> keeps (fs ++ [(x, f)]) (register f x r).
Proof.
  intros [W K]. destruct (trie_insert_ok (r_trie r) x (Z.of_nat (length (r_array r))) W) as [W' H]. constructor; [exact W'|].
  intros y. cbn [register r_trie r_array]. rewrite H, latest_app. cbn [latest]. destruct (list_eq_dec Z.eq_dec x y) as [<-|N].
  - right. rewrite bytes_eqb_refl. eexists. split; [reflexivity|]. split; [|discriminate]. rewrite nth_error_app2, Nat.sub_diag; [reflexivity|lia].
  - rewrite bytes_eqb_ne by congruence. destruct (K y) as [K'|[i [A [B C]]]]; [left; exact K'|]. right. exists i. split; [exact A|]. split; [|exact C].
    rewrite nth_error_app1; [exact B|]. apply nth_error_Some. congruence.
Qed.
Lemma keeps_found {F} (fs : list (bytes * F)) r x : keeps fs r -> find_registered r x = Ok (latest fs x).
Proof.
  intros [_ K]. unfold find_registered. destruct (K x) as [[-> ->]|[i [-> [B C]]]]; [reflexivity|].
  destruct (Z.eqb_spec (Z.of_nat i) (-1)); [lia|]. destruct (Z.ltb_spec (Z.of_nat i) 0); [lia|]. rewrite Nat2Z.id, B. destruct (latest fs x); [reflexivity|congruence].
Qed.

Lemma all_keeps_from {F} (gs fs : list (bytes * F)) r : keeps fs r -> keeps (fs ++ gs) (fold_left (fun r f => register (snd f) (fst f) r) gs r).
Proof.
  revert fs r. induction gs as [|[x f] gs IH]; intros fs r K; cbn [fold_left fst snd]; [rewrite app_nil_r; exact K|].
  change ((x, f) :: gs) with ([(x, f)] ++ gs). rewrite app_assoc. apply IH, register_keeps, K.
Qed.
Lemma all_keeps {F} (fs : list (bytes * F)) : keeps fs (all_registered fs).
Proof. exact (all_keeps_from fs [] _ none_keeps). Qed.

Lemma add_registers {F} (es : list (entry_of F)) : forall r ps, addGenerators es (r, ps) =
  (fold_left (fun r f => register (snd f) (fst f) r) (functions es) r, ps ++ declarations es).
Proof.
  induction es as [|e es IH]; intros r ps; cbn [addGenerators functions declarations map flat_map fold_left]; [rewrite app_nil_r; reflexivity|].
  unfold addGenerator. cbn [fst snd]. rewrite IH. f_equal. destruct (e_type e); cbn [length Nat.ltb Nat.leb app]; [reflexivity|]. rewrite <- app_assoc. reflexivity.
Qed.

(** Whatever has been registered, in whatever order: every name leads to the form registered last under it. *)
Theorem forms_found {F} (es : list (entry_of F)) x :
  find_registered (fst (addGenerators es (none_registered, []))) x = Ok (latest (functions es) x).
Proof. rewrite add_registers. apply keeps_found, all_keeps. Qed.
Theorem declarations_kept {F} (es : list (entry_of F)) r ps : snd (addGenerators es (r, ps)) = ps ++ declarations es.
Proof. rewrite add_registers. reflexivity. Qed.
Theorem actions_found {F} (fs : list (bytes * F)) a :
  find_action (all_registered fs) a = Ok (match head_name a with Some x => latest fs x | None => None end).
Proof.
  destruct (all_keeps fs) as [_ K].
  assert (forall x, (let i := trie_find (r_trie (all_registered fs)) x in
    if 0 <=? i then match nth_error (r_array (all_registered fs)) (Z.to_nat i) with Some f => Ok (Some f) | None => Err invalidValue end else Ok None) = Ok (latest fs x)) as H.
  { intros x. cbv zeta. destruct (K x) as [[-> ->]|[i [-> [B C]]]]; [reflexivity|]. destruct (Z.leb_spec 0 (Z.of_nat i)); [|lia].
    rewrite Nat2Z.id, B. destruct (latest fs x); [reflexivity|congruence]. }
  destruct a as [| | | | | |[|[] ?]|[|[] ?]]; try reflexivity; apply H.
Qed.

(** * The table of duckLisp_init *)

Lemma latest_in {F} (fs : list (bytes * F)) x f : latest fs x = Some f -> In (x, f) fs.
Proof.
  induction fs as [|[y g] r IH]; cbn [latest]; [discriminate|]. destruct (latest r x); [intros [= ->]; right; auto|].
  destruct (list_eq_dec Z.eq_dec y x) as [->|]; [intros [= ->]; left; reflexivity|discriminate].
Qed.
Lemma latest_none {F} (fs : list (bytes * F)) x : latest fs x = None -> ~ In x (map fst fs).
Proof.
  induction fs as [|[y g] r IH]; cbn [latest]; intros H; [intros []|]. destruct (latest r x); [discriminate|].
  destruct (list_eq_dec Z.eq_dec y x); [discriminate|]. intros [E|I]; [auto|]. exact (IH eq_refl I).
Qed.
Lemma assoc_in {A} (l : list (bytes * A)) x a : assoc_name l x = Some a -> In (x, a) l.
Proof.
  induction l as [|[y b] l IH]; cbn [assoc_name]; [discriminate|]. unfold name_is. destruct (list_eq_dec Z.eq_dec y x) as [->|]; [intros [= ->]; left; reflexivity|right; auto].
Qed.

Definition generator_eqb (a b : generator) : {a = b} + {a <> b}.
Proof. decide equality; decide equality. Defined.
Definition known (x : bytes) : bool := existsb (name_is x) (map fst (functions generators)).
Lemma known_in x : known x = true -> In x (map fst (functions generators)).
Proof. unfold known. rewrite existsb_exists. intros [y [I E]]. unfold name_is in E. destruct (list_eq_dec Z.eq_dec x y) as [->|]; [exact I|discriminate]. Qed.
Lemma table_known : forallb (fun p => (match snd p with GError => true | _ => known (fst p) end) && known (95 :: 95 :: fst p)) generator_table = true.
Proof. vm_compute. reflexivity. Qed.
Definition special (f : form) (x : bytes) : bool :=
  match f with
  | Comptime => name_is x (str "comptime") || name_is x (str "__comptime")
  | Defmacro => name_is x (str "defmacro") || name_is x (str "__defmacro")
  | Form _ => negb (name_is x (str "comptime") || name_is x (str "__comptime") || name_is x (str "defmacro") || name_is x (str "__defmacro"))
  end.
Lemma table_agrees : forallb (fun p => (name_is (fst p) defmacro_lambda || match find_generator (fst p) with Some g => if generator_eqb g (as_generator (snd p)) then true else false | None => false end)
  && special (snd p) (fst p)) (functions generators) = true.
Proof. vm_compute. reflexivity. Qed.
Lemma unknown_word x g : find_generator x = Some g -> In x (map fst (functions generators)).
Proof.
  pose proof table_known as T. rewrite forallb_forall in T. unfold find_generator. unfold name_is at 1. destruct (list_eq_dec Z.eq_dec x defun_lambda) as [->|_].
  { intros _. apply known_in. vm_compute. reflexivity. }
  assert (forall r, assoc_name generator_table r = Some g -> (g <> GError -> In r (map fst (functions generators))) /\ In (95 :: 95 :: r) (map fst (functions generators))) as H.
  { intros r E. apply assoc_in in E. specialize (T _ E). cbn [fst snd] in T. apply andb_true_iff in T as [A B]. split; [|exact (known_in _ B)].
    intros N. apply known_in. destruct g; try exact A; congruence. }
  assert (match assoc_name generator_table x with Some GError => None | g => g end = Some g -> In x (map fst (functions generators))) as H1.
  { intros E. destruct (assoc_name generator_table x) as [g'|] eqn:E'; [|discriminate]. destruct g'; try discriminate E; injection E as <-; apply (proj1 (H x E')); discriminate. }
  assert (forall r, x = 95 :: 95 :: r -> match assoc_name generator_table r with Some g => Some g | None => assoc_name generator_table x end = Some g -> In x (map fst (functions generators))) as H2.
  { intros r -> E. destruct (assoc_name generator_table r) as [g'|] eqn:E'; [injection E as <-; exact (proj2 (H r E'))|].
    apply (proj1 (H _ E)). intros ->. apply assoc_in in E. assert (existsb (fun p => name_is (fst p) (95 :: 95 :: r)) generator_table = true) as X.
    { rewrite existsb_exists. exists (95 :: 95 :: r, GError). split; [exact E|]. unfold name_is. cbn [fst]. destruct (list_eq_dec _ _ _); [reflexivity|congruence]. }
    assert (forallb (fun p => negb (match fst p with a :: b :: _ => (a =? 95) && (b =? 95) | _ => false end)) generator_table = true) as Y by (vm_compute; reflexivity).
    rewrite forallb_forall in Y. specialize (Y _ E). discriminate Y. }
  destruct x as [|a x]; [exact H1|]. destruct (Z.eq_dec a 95) as [->|Na].
  - destruct x as [|b x]; [exact H1|]. destruct (Z.eq_dec b 95) as [->|Nb]; [exact (H2 x eq_refl)|].
    intros E. apply H1. destruct b as [|b|b]; try exact E. repeat (destruct b as [b|b|]; try exact E); exfalso; apply Nb; reflexivity.
  - intros E. apply H1. destruct a as [|a|a]; try exact E. repeat (destruct a as [a|a|]; try exact E); exfalso; apply Na; reflexivity.
Qed.

(** The table of a new compiler gives every name the form M_Compile and M_Macro take it for; the exception is the
    name only defmacro uses. *)
Theorem table_forms x : exists f, find_registered (fst init_generators) x = Ok f /\
  (x <> defmacro_lambda -> option_map as_generator f = find_generator x) /\
  (x = defmacro_lambda -> f = Some (Form GLambda)) /\
  (f = Some Comptime <-> x = str "comptime" \/ x = str "__comptime") /\
  (f = Some Defmacro <-> x = str "defmacro" \/ x = str "__defmacro").
Proof.
  exists (latest (functions generators) x). split; [apply forms_found|].
  pose proof table_agrees as T. rewrite forallb_forall in T.
  assert (forall f, latest (functions generators) x = Some f -> (x <> defmacro_lambda -> find_generator x = Some (as_generator f)) /\ special f x = true) as K.
  { intros f E. apply latest_in in E. specialize (T _ E). cbn [fst snd] in T. apply andb_true_iff in T as [A B]. split; [|exact B]. intros N.
    apply orb_true_iff in A as [A|A]; [unfold name_is in A; destruct (list_eq_dec _ _ _); [contradiction|discriminate]|].
    destruct (find_generator x) as [g|]; [|discriminate]. destruct (generator_eqb g (as_generator f)) as [->|]; [reflexivity|discriminate]. }
  assert (forall a b, name_is a b = true <-> a = b) as Nm.
  { intros a b. unfold name_is. destruct (list_eq_dec _ _ _); split; congruence. }
  split; [|split; [|split]].
  - intros N. destruct (latest (functions generators) x) as [f|] eqn:E; cbn [option_map]; [symmetry; apply (proj1 (K f eq_refl) N)|].
    destruct (find_generator x) as [g|] eqn:E'; [|reflexivity]. apply unknown_word in E'. destruct (latest_none _ _ E E').
  - intros ->. vm_compute. reflexivity.
  - split; [intros E; destruct (K _ E) as [_ S]; cbn [special] in S; apply orb_true_iff in S; rewrite !Nm in S; exact S|].
    intros [->| ->]; vm_compute; reflexivity.
  - split; [intros E; destruct (K _ E) as [_ S]; cbn [special] in S; apply orb_true_iff in S; rewrite !Nm in S; exact S|].
    intros [->| ->]; vm_compute; reflexivity.
Qed.

(** * What a name in a program means *)

Theorem names_resolved cfg us v fs s sc x : idle v -> link_compiler true fs (Compiler (symbols_after us) (trie_init (-1)) v) = (Ok tt, s) -> callbacks cfg = names fs ->
  x <> defmacro_lambda -> In (getScopeFunction sc x) [-1; functionType_c; functionType_ducklisp; functionType_macro] ->
  exists t, function_of_name (getScopeFunction sc x) s (fst init_generators) x = Ok t /\ agree t (getFunctionFromName cfg sc x) /\
    (getScopeFunction sc x = -1 -> forall k, t = ToCallback k -> k = nameToValue (c_symbols s) x /\ 0 <= k).
Proof.
  intros Id L C N I. set (n := getScopeFunction sc x) in *. unfold function_of_name, getFunctionFromName. fold n. destruct (Z.eqb_spec n (-1)) as [E|Nn].
  - destruct (compiler_after us [] v fs Id) as [[s' [L' K]]|[s' [L' _]]]; change (trie_run (-1) []) with (trie_init (-1)) in L'; rewrite L' in L; [|discriminate]. injection L as ->.
    rewrite C. destruct (in_dec bytes_dec x (names fs)) as [J|J].
    + pose proof (cl_names _ _ _ K x J) as P. rewrite (cl_known _ _ _ K x J). destruct (Z.eqb_spec (nameToValue (c_symbols s) x) (-1)); [lia|]. cbn [negb].
      eexists. split; [reflexivity|]. replace (existsb (name_is x) (names fs)) with true.
      * split; [constructor|]. intros _ k [= <-]. auto.
      * symmetry. rewrite existsb_exists. exists x. split; [exact J|]. unfold name_is. destruct (list_eq_dec _ _ _); congruence.
    + rewrite (cl_others _ _ _ K x J). change (trie_find (c_callbacks _) x) with (trie_find (trie_init (-1)) x). replace (trie_find (trie_init (-1)) x) with (-1) by (destruct x; reflexivity).
      cbn [Z.eqb Pos.eqb negb]. destruct (table_forms x) as [f [F [A _]]]. rewrite F. cbn [bind].
      replace (existsb (name_is x) (names fs)) with false.
      * eexists. split; [reflexivity|]. specialize (A N). destruct f as [f|]; cbn [option_map] in A; rewrite <- A; (split; [constructor|intros _ k H; discriminate H]).
      * symmetry. apply not_true_iff_false. rewrite existsb_exists. intros [y [Iy Ey]]. unfold name_is in Ey. destruct (list_eq_dec _ _ _) as [->|]; [contradiction|discriminate].
  - destruct I as [I|[I|[I|[I|[]]]]]; [congruence| | |]; rewrite <- I in *; eexists; (split; [reflexivity|]); (split; [constructor|congruence]).
Qed.

(** * The declarations of the table *)

Definition declaringb (script : bytes) (u : option ast) : bool :=
  match u, script with
  | None, [] => true
  | Some a, _ :: _ => formed a && mentions (str "declare-identifier") a && mentions (str "infer-and-get-next-argument") a
  | _, _ => false
  end.
Lemma declaringb_ok script u : declaringb script u = true -> declaring script u.
Proof.
  destruct u as [a|], script; cbn [declaringb declaring]; try discriminate; [|reflexivity]. rewrite !andb_true_iff. intros [[A B] C]. repeat split; try assumption. discriminate.
Qed.
Definition declared_ok (p : prototype) : bool :=
  match read_prototype 2000 1000 p with
  | POk (x, t, u) => name_is x (p_name p) && declaringb (p_script p) u && match from_ast t with Ok s => match default_arguments s with Some n => beyond x || enough x n | None => false end | _ => false end
  | _ => false
  end.
Lemma table_declared : forallb declared_ok (snd init_generators) = true.
Proof. vm_compute. reflexivity. Qed.
Lemma beyond_refused x : beyond x = true -> operands_of x = Refused.
Proof. unfold beyond. destruct (operands_of x); [discriminate|discriminate|reflexivity]. Qed.
Definition fits (p : prototype) (r : pres (bytes * ast * option ast)) : Prop :=
  exists t u s n, r = POk (p_name p, t, u) /\ from_ast t = Ok s /\ default_arguments s = Some n /\
    (operands_of (p_name p) = Refused \/ enough (p_name p) n = true) /\ declaring (p_script p) u.
Lemma checked p (r : pres (bytes * ast * option ast)) :
  match r with
  | POk (x, t, u) => name_is x (p_name p) && declaringb (p_script p) u && match from_ast t with Ok s => match default_arguments s with Some n => beyond x || enough x n | None => false end | _ => false end
  | _ => false
  end = true -> fits p r.
Proof.
  unfold fits. destruct r as [[[x t] u]| | | |]; try discriminate. intros T. apply andb_true_iff in T as [A B]. apply andb_true_iff in A as [A D0].
  unfold name_is in A. destruct (list_eq_dec Z.eq_dec x (p_name p)) as [->|]; [|discriminate].
  destruct (from_ast t) as [s| | |] eqn:F; try discriminate. destruct (default_arguments s) as [n|] eqn:D; [|discriminate]. exists t, u, s, n.
  split; [reflexivity|]. split; [exact F|]. split; [exact D|]. split; [|apply declaringb_ok, D0]. apply orb_true_iff in B as [B|B]; [left; apply beyond_refused, B|right; exact B].
Qed.
Lemma declared_fits p : declared_ok p = true -> fits p (read_prototype 2000 1000 p).
Proof. exact (checked p (read_prototype 2000 1000 p)). Qed.
Lemma table_each p : In p (snd init_generators) -> declared_ok p = true.
Proof. exact (proj1 (forallb_forall declared_ok (snd init_generators)) table_declared p). Qed.
Theorem declarations_fit p : In p (snd init_generators) ->
  exists t u s n, read_prototype 2000 1000 p = POk (p_name p, t, u) /\ from_ast t = Ok s /\ default_arguments s = Some n /\
    (operands_of (p_name p) = Refused \/ enough (p_name p) n = true) /\ declaring (p_script p) u.
Proof. intros I. exact (declared_fits p (table_each p I)). Qed.
