(** Programs that compute while they are compiled, and where macros go wrong (C68-C70). *)
From Coq Require Import String ZArith List Bool Lia.
From Verif Require Import M_Base M_Trie M_Heap M_Instr M_VM M_Asm M_Parser M_Symbol M_Scope M_Compile M_Load S_Asm S_Symbol S_Compile S_Run S_Program S_Load S_Convert S_Macro X_Machine X_Compile X_Load S_Accept S_Reader P_Reader5 P_Reader6.
From Verif Require Import P_Symbol P_Compile2 P_Correct2 P_Convert3 P_Program P_Comptime3 P_Macro2.
From Verif Require M_Macro.
Import ListNotations.
Open Scope Z_scope.
Open Scope list_scope.

(** ** A form that is evaluated while compiling *)

Definition k_exp : exp := EGlobal (word "g") (EList [EBin BAdd (ELit (LInt 2)) (ELit (LInt 3))]).
Definition k_value : value := VPair (VInt 5) VNil.
Definition k_g := trie_init (-1).
Definition k_c1 : cstate := match compile ex_cfg 48 1 (Noscope [tree k_exp]) (opened (compile_state ex_names k_g) ex_names) with Ok (_, c) => c | _ => compile_state ex_names k_g end.
Definition k_prog : list ainstr := match body k_c1 with Some p => p | None => [] end.
Definition k_bytes : list Z := match assemble true true false (Z.to_nat (label_number k_c1)) k_prog with Ok b => b | _ => [] end.
Definition k_st : cstate := match (compile ex_cfg 48 1 (Compound (tree (source k_value)) true) >>> finish) (compile_state (symbols_of k_c1) k_g) with Ok (_, c) => c | _ => compile_state ex_names k_g end.
Definition k_code := ex_code true k_st.
Definition k_text : list Z := word "(comptime (global g (list (+ 2 3))))".

Lemma k_compiles : compile ex_cfg 48 1 (Noscope [tree k_exp]) (opened (compile_state ex_names k_g) ex_names) = Ok (0, k_c1).
Proof. vm_compute. reflexivity. Qed.
Lemma k_second : second_code ex_cfg true true 48 1 k_exp (compile_state ex_names k_g) ex_names k_c1 k_bytes.
Proof.
  exists 0, k_prog. split; [exact k_compiles|]. split; [vm_compute; reflexivity|]. split; [vm_compute; reflexivity|].
  split; [|discriminate]. unfold S_Load.fits. set (p := k_prog). vm_compute in p. split; [subst p; fits|]. split; [subst p; fits|]. split; [vm_compute; reflexivity|].
  intros _. vm_compute. discriminate.
Qed.
Lemma k_constant : (compile ex_cfg 48 1 (Compound (tree (source k_value)) true) >>> finish) (compile_state (symbols_of k_c1) k_g) = Ok (tt, k_st).
Proof. vm_compute. reflexivity. Qed.
Lemma k_assembles : assembles true true k_st k_code.
Proof.
  split; [vm_compute; reflexivity|]. set (p := assembly k_st). vm_compute in p. split; [subst p; fits|]. split; [subst p; fits|]. split; [vm_compute; reflexivity|].
  vm_compute. discriminate.
Qed.
Lemma k_start : sessions ex_cfg ex_names k_g k_g.
Proof. apply both_start. Qed.
Lemma k_numbering : exists ids, numbering (symbols_of k_st) ids /\ assignments_apart ids k_exp.
Proof.
  destruct (naming_exists (symbols_of k_st)) as [ids [A B]].
  { assert (sessions ex_cfg (symbols_of k_c1) k_g (globals_trie k_c1)) as S by (eapply both_second; [exact k_start| |exact k_compiles]; reflexivity).
    destruct (sessions_ok _ _ _ _ cfg_apart S) as [C [N _]].
    apply (program_shape_at ex_cfg 48 1 (source k_value) _ _ k_st cfg_apart C N); [reflexivity|exact k_constant]. }
  exists ids. split; [split; [exact A|exact B]|]. intros x i I. vm_compute in I. destruct I as [I|[]]. injection I as <- <-.
  rewrite A by (vm_compute; discriminate). vm_compute. discriminate.
Qed.
Lemma k_written : written 0 (at_compile_time (tree k_exp)) k_text.
Proof.
  replace k_text with (print (at_compile_time (tree k_exp)) ++ []) by (vm_compute; reflexivity).
  apply written_now; [vm_compute; reflexivity|]. apply print_spells; [apply printableb_ok; vm_compute; reflexivity|]. left. eexists. reflexivity.
Qed.

Lemma k_meets : callbacks_apart ex_cfg /\ ~ In (word "comptime") (callbacks ex_cfg) /\ ~ In (word "__cons") (callbacks ex_cfg) /\
  sessions ex_cfg ex_names (trie_init (-1)) (trie_init (-1)) /\
  written 0 (at_compile_time (tree k_exp)) k_text /\ (length k_text + 2 <= 50)%nat /\ (nesting (at_compile_time (tree k_exp)) < 100)%nat /\
  good k_exp = true /\ second_code ex_cfg true true 48 1 k_exp (compile_state ex_names (trie_init (-1))) ex_names k_c1 k_bytes /\
  (compile ex_cfg 48 1 (Compound (tree (source k_value)) true) >>> finish) (compile_state (symbols_of k_c1) (trie_init (-1))) = Ok (tt, k_st) /\
  assembles true true k_st k_code /\ (exists ids, numbering (symbols_of k_st) ids /\ assignments_apart ids k_exp) /\
  (exists s, eval 20 k_exp (State [] (fun _ => None)) = Ok (k_value, s) /\ globals_of s (word "g") = Some k_value) /\ constant_value k_value /\
  idle (vm_init 100) /\ forall ids x, represents ids (vm_init 100) (ids x) None.
Proof.
  split; [exact cfg_apart|]. split; [intros []|]. split; [intros []|]. split; [exact k_start|]. split; [exact k_written|].
  split; [cbn; lia|]. split; [vm_compute; lia|]. split; [reflexivity|]. split; [exact k_second|]. split; [exact k_constant|]. split; [exact k_assembles|].
  split; [exact k_numbering|]. split; [exists (after (eval 20 k_exp (State [] (fun _ => None)))); split; vm_compute; reflexivity|]. split; [cbn; auto|].
  split; [exact ex_idle|exact ex_none].
Qed.

Lemma k_loads : exists l, load_string ex_cfg true true false 500 100 l_text 0 ex_names (trie_init (-1)) = Ok l.
Proof. eexists. vm_compute. reflexivity. Qed.

Lemma k_form : second_code ex_cfg true true 48 1 k_exp (compile_state ex_names (trie_init (-1))) ex_names k_c1 k_bytes /\
  good k_exp = true /\ constant_value k_value /\ (exists ids, numbering (symbols_of k_c1) ids /\ assignments_apart ids k_exp) /\
  (exists s, eval 20 k_exp (State [] (fun _ => None)) = Ok (k_value, s)) /\
  getScopeFunction (scopes (compile_state ex_names (trie_init (-1)))) (word "comptime") = -1 /\ ok (opened (compile_state ex_names (trie_init (-1))) ex_names) [].
Proof.
  split; [exact k_second|]. split; [reflexivity|]. split; [cbn; auto|]. split.
  { destruct k_numbering as [ids [[A B] C]]. exists ids. split; [split; [|exact B]|exact C]. intros x H. rewrite A; reflexivity || exact H. }
  split; [eexists; vm_compute; reflexivity|]. split; [reflexivity|].
  destruct (sessions_ok _ _ _ _ cfg_apart k_start) as [C [N _]]. apply opened_ok, compile_state_ok; assumption.
Qed.

(** ** Macros *)

(** A text is loaded by a new compiler, and what is loaded is run on a new machine. *)
Definition k_load (t : string) y g gc v := M_Macro.load_string ex_cfg true true false no_host 2000 300 100 (word t) 0 y g gc v.
Definition k_first (t : string) := k_load t ex_names (trie_init (-1)) (trie_init (-1)) (vm_init 200).
Definition k_next (t : string) (l : M_Macro.mloaded) :=
  k_load t (M_Macro.msymbols l) (M_Macro.mglobals l) (M_Macro.mcomptime_globals l) (M_Macro.mmachine l).
(** The last value a program leaves. *)
Definition k_gives (l : M_Macro.mloaded) (o : object) : Prop :=
  exists v rest, execute_with_ip no_host 2000 (M_Macro.mcode l) 0 (vm_init 100) = (Ok tt, v) /\ stack v = o :: rest.
Definition k_lead (r : res M_Macro.mloaded) : M_Macro.mloaded := match r with Ok l => l | _ => M_Macro.MLoaded [] ex_names (trie_init (-1)) (trie_init (-1)) (vm_init 0) end.
Definition k_top (l : M_Macro.mloaded) : option object :=
  match execute_with_ip no_host 2000 (M_Macro.mcode l) 0 (vm_init 100) with (Ok tt, v) => hd_error (stack v) | _ => None end.
Lemma k_top_gives l o : k_top l = Some o -> k_gives l o.
Proof.
  unfold k_top, k_gives. destruct (execute_with_ip _ _ _ _ _) as [[[]|?| |] v]; try discriminate. destruct (stack v) as [|x rest] eqn:E; [discriminate|].
  cbn. intros [= <-]. exists v, rest. auto.
Qed.
Definition k_ok {A} (r : res A) : bool := match r with Ok _ => true | _ => false end.
Lemma k_lead_ok r : k_ok r = true -> r = Ok (k_lead r).
Proof. destruct r; [reflexivity|discriminate..]. Qed.
Ltac k_runs := split; [apply k_lead_ok; vm_compute; reflexivity|apply k_top_gives; vm_compute; reflexivity].

(** A macro that builds an expression. *)
Lemma macro_works : exists l, k_first "(() (defmacro twice (x) (list (quote +) x x)) (twice 21))" = Ok l /\ k_gives l (OInteger 42).
Proof. eexists. k_runs. Qed.
(** A macro that gives back its argument, a variable. *)
Lemma macro_variable : exists l1 l2,
  k_first "(() (defmacro same (x) x) (var a 5) (var b 6) (same a))" = Ok l1 /\ k_gives l1 (OInteger 6) /\
  k_first "(() (defmacro same (x) x) (var a 5) (var b 6) a)" = Ok l2 /\ k_gives l2 (OInteger 5).
Proof.
  eexists. eexists. apply and_assoc. split; [k_runs|k_runs].
Qed.
Lemma macro_refused : exists l0 l,
  k_first "(() (defmacro same (x) x) (var a 5) (var b (same a)) b)" = Ok l0 /\ fst (execute_with_ip no_host 2000 (M_Macro.mcode l0) 0 (vm_init 100)) = Err invalidValue /\
  k_first "(() (defmacro same (x) x) (var a 5) (var b a) b)" = Ok l /\ k_gives l (OInteger 5).
Proof.
  eexists. eexists. apply and_assoc. split; [|k_runs]. split; [apply k_lead_ok; vm_compute; reflexivity|]. vm_compute. reflexivity.
Qed.
(** The macros of a second text. *)
Lemma macro_second : exists l1 l2,
  k_first "(() (defmacro f () 1) (f))" = Ok l1 /\ k_gives l1 (OInteger 1) /\
  k_next "(() (defmacro g () 2) (g))" l1 = Ok l2 /\ k_gives l2 (OInteger 1).
Proof.
  exists (k_lead (k_first "(() (defmacro f () 1) (f))")). eexists. apply and_assoc. split; [k_runs|k_runs].
Qed.
(** A global without a value, read while compiling: the value on top of an empty stack is looked at. *)
Lemma comptime_undefined : k_first "(comptime zz)" = UB.
Proof. vm_compute. reflexivity. Qed.

(** ** The use of a macro in the middle of a program *)

Definition k_def : list ast := match read 100 (load_source (word "(defmacro sub (x y) (list (quote -) y x))") 0) 10 0 with POk (AstExpression l, _) => l | _ => [] end.
Definition k_arguments : list datum := [DLit (LInt 1); DList [DSym (word "+"); DLit (LInt 40); DLit (LInt 3)]].
Definition k_defined : M_Macro.mstate :=
  match M_Macro.compile ex_cfg true true no_host 2000 300 1 (Form k_def) (M_Macro.compile_state ex_names (trie_init (-1)) (trie_init (-1)) (vm_init 200)) with
  | Ok (_, s) => s
  | _ => M_Macro.compile_state ex_names (trie_init (-1)) (trie_init (-1)) (vm_init 0)
  end.
Definition k_call : res (unit * M_Macro.mstate) :=
  M_Macro.gbind (M_Macro.quoted_arguments (M_Macro.compile ex_cfg true true no_host 2000 299 1) (map datum_tree k_arguments))
    (fun _ => M_Macro.emit_funcall (M_Macro.getMacroFromName (scopes (M_Macro.comptime k_defined)) (word "sub")) (Z.of_nat (length (map datum_tree k_arguments))))
    (M_Macro.MState (M_Macro.runtime k_defined) (calling_from (M_Macro.comptime k_defined) (symbols_of (M_Macro.runtime k_defined)) (zlen (stack (M_Macro.machine k_defined)))) true (M_Macro.machine k_defined)).
Definition k_called : M_Macro.mstate := match k_call with Ok (_, s) => s | _ => k_defined end.
Definition k_called_prog : list ainstr := match body (M_Macro.comptime k_called) with Some p => p | None => [] end.
Definition k_called_bytes : list Z := match assemble true true false (Z.to_nat (label_number (M_Macro.comptime k_defined))) k_called_prog with Ok b => b | _ => [] end.

Lemma k_call_ok :
  M_Macro.gbind (M_Macro.quoted_arguments (M_Macro.compile ex_cfg true true no_host 2000 299 1) (map datum_tree k_arguments))
    (fun _ => M_Macro.emit_funcall (M_Macro.getMacroFromName (scopes (M_Macro.comptime k_defined)) (word "sub")) (Z.of_nat (length (map datum_tree k_arguments))))
    (M_Macro.MState (M_Macro.runtime k_defined) (calling_from (M_Macro.comptime k_defined) (symbols_of (M_Macro.runtime k_defined)) (zlen (stack (M_Macro.machine k_defined)))) true (M_Macro.machine k_defined)) = Ok (tt, k_called).
Proof. vm_compute. reflexivity. Qed.
Lemma k_called_body : body (M_Macro.comptime k_called) = Some k_called_prog.
Proof. vm_compute. reflexivity. Qed.
Lemma k_called_assembles : assemble true true false (Z.to_nat (label_number (M_Macro.comptime k_defined))) k_called_prog = Ok k_called_bytes.
Proof. vm_compute. reflexivity. Qed.
Lemma k_called_fits : S_Load.fits true true k_called_prog.
Proof.
  let t := eval vm_compute in k_called_prog in assert (k_called_prog = t) as -> by (vm_compute; reflexivity).
  unfold S_Load.fits. split; [fits|]. split; [fits|]. split; [vm_compute; reflexivity|]. intros _. vm_compute. discriminate.
Qed.
Lemma k_call_code : call_code ex_cfg true true no_host 2000 299 1 (word "sub") (map datum_tree k_arguments) (M_Macro.runtime k_defined) (M_Macro.comptime k_defined) (M_Macro.machine k_defined)
  (symbols_of (M_Macro.runtime k_called)) k_called_bytes.
Proof.
  unfold call_code. exists k_called, k_called_prog. split; [exact k_call_ok|]. split; [reflexivity|]. split; [exact k_called_body|]. split; [exact k_called_assembles|].
  split; [exact k_called_fits|discriminate].
Qed.
Lemma k_idle : idle (M_Macro.machine k_defined).
Proof.
  split; [apply X_Types.typedb_ok; vm_compute; reflexivity|]. set (v := M_Macro.machine k_defined).
  split; [|vm_compute; reflexivity]. assert (globals_map v = []) as E by (vm_compute; reflexivity). assert (globals v = []) as F by (vm_compute; reflexivity).
  unfold S_Globals.globals_ok. rewrite E, F. split; [reflexivity|constructor].
Qed.
Definition k_after : vm := snd (execute_with_ip no_host 2000 (k_called_bytes ++ [165]) 0 (M_Macro.machine k_defined)).
Definition k_result : object := hd ONone (stack k_after).
(** The macro is where the second sub-compiler says it is, and the call meets the hypotheses. *)
Lemma k_use : 
  let r := M_Macro.runtime k_defined in let c := M_Macro.comptime k_defined in let v := M_Macro.machine k_defined in let m := word "sub" in
  let p := M_Macro.getMacroFromName (scopes c) m in
  M_Macro.compiling k_defined = false /\
  getFunctionFromName ex_cfg (scopes r) m = CalleeGenerator GOther /\ getScopeFunction (scopes r) m = functionType_macro /\
  getFunctionFromName ex_cfg (scopes c) (word "__quote") = CalleeGenerator GQuote /\ (exists us, symbols_of r = symbols_after us) /\
  forallb good_datum k_arguments = true /\ (length k_arguments < 256)%nat /\ 0 <= p < zlength (stack v) /\
  call_code ex_cfg true true no_host 2000 299 1 m (map datum_tree k_arguments) r c v (symbols_of (M_Macro.runtime k_called)) k_called_bytes /\
  idle v /\ (exists f, nth_error (rev (stack v)) (Z.to_nat p) = Some f) /\
  exists v1 o rest v2 t, execute_with_ip no_host 2000 (k_called_bytes ++ [165]) 0 v = (Ok tt, v1) /\ stack v1 = o :: rest /\
    M_Convert.object_to_ast 2000 (objects v1) true o = Ok t /\ t = tree (EBin BSub (EBin BAdd (ELit (LInt 40)) (ELit (LInt 3))) (ELit (LInt 1))) /\
    stack_pop v1 = (Ok o, v2).
Proof.
  intros r c v m p. split; [vm_compute; reflexivity|]. split; [vm_compute; reflexivity|]. split; [vm_compute; reflexivity|]. split; [vm_compute; reflexivity|].
  split; [exists (map (fun s => Intern (word s)) ["a"; "b"; "c"; "d"; "e"; "f"; "-"]%string ++ [Label; Label]); vm_compute; reflexivity|]. split; [vm_compute; reflexivity|]. split; [vm_compute; lia|]. split; [vm_compute; split; congruence|].
  split; [exact k_call_code|]. split; [exact k_idle|]. split; [exists (OClosure 2 (Some 199%nat) (Some 198%nat) 2 false); vm_compute; reflexivity|].
  destruct (execute_with_ip no_host 2000 (k_called_bytes ++ [165]) 0 v) as [o v1] eqn:E.
  assert (o = Ok tt) as -> by (replace o with (fst (execute_with_ip no_host 2000 (k_called_bytes ++ [165]) 0 v)) by (rewrite E; reflexivity); vm_compute; reflexivity).
  assert (v1 = k_after) as -> by (unfold k_after; fold v; rewrite E; reflexivity).
  exists k_after, k_result, (stack v), (snd (stack_pop k_after)), (tree (EBin BSub (EBin BAdd (ELit (LInt 40)) (ELit (LInt 3))) (ELit (LInt 1)))).
  split; [reflexivity|]. split; [vm_compute; reflexivity|]. split; [vm_compute; reflexivity|]. split; [reflexivity|].
  replace (Ok k_result) with (fst (stack_pop k_after)) by (vm_compute; reflexivity). destruct (stack_pop k_after); reflexivity.
Qed.

(** ** What macros and comptime give *)

Lemma comptime_nested_works : exists l, k_first "(comptime (+ 1 (comptime (+ 2 3))))" = Ok l /\ k_gives l (OInteger 6).
Proof. eexists. k_runs. Qed.
Lemma definition_value : exists l, k_first "(() (defmacro f () 1))" = Ok l /\ k_gives l (OList None).
Proof. eexists. k_runs. Qed.
Lemma macro_two : exists l, k_first "(() (defmacro f () 1) (f) (defmacro g () 2) (g))" = Ok l /\ k_gives l (OInteger 2).
Proof. eexists. k_runs. Qed.
Lemma macro_arguments : exists l, k_first "(() (defmacro sub (x y) (list (quote -) y x)) (sub 1 43))" = Ok l /\ k_gives l (OInteger 42).
Proof. eexists. k_runs. Qed.
Lemma macro_operand : exists l, k_first "(() (defmacro same (x) x) (var a 5) (var b 6) (+ (same a) 1))" = Ok l /\ k_gives l (OInteger 6).
Proof. eexists. k_runs. Qed.
Lemma macro_nested_refused : k_first "(comptime (defmacro f () 1))" = Err invalidValue.
Proof. vm_compute. reflexivity. Qed.
Lemma macro_gives :
  (exists l, k_first "(() (defmacro f () 1))" = Ok l /\ k_gives l (OList None)) /\
  (exists l, k_first "(() (defmacro f () 1) (f) (defmacro g () 2) (g))" = Ok l /\ k_gives l (OInteger 2)) /\
  (exists l, k_first "(() (defmacro sub (x y) (list (quote -) y x)) (sub 1 43))" = Ok l /\ k_gives l (OInteger 42)) /\
  exists l, k_first "(() (defmacro same (x) x) (var a 5) (var b 6) (+ (same a) 1))" = Ok l /\ k_gives l (OInteger 6).
Proof. exact (conj definition_value (conj macro_two (conj macro_arguments macro_operand))). Qed.
