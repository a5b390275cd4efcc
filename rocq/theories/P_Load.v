(** Loading texts (C64). *)
From Coq Require Import ZArith List Bool Lia.
From Verif Require P_Sim.
From Verif Require Import M_Base M_Trie M_Symbol M_Asm M_Parser M_String M_Heap M_VM M_Compile M_Load S_Reader S_Asm S_Compile S_Run S_Program S_Load.
From Verif Require Import P_Symbol P_Reader6 P_Abs P_Peep P_Asm3 P_Asm4 P_Program P_Correct2 P_Session P_Accept4 P_Dyn6.
From Verif Require Import S_Symbol S_Accept S_Frame.
Import ListNotations.
Open Scope Z_scope.

Lemma spelled_head t a rest : spells t a rest -> t <> [].
Proof. intros H. destruct H; try discriminate. - destruct H as [t v [s v' N P|x s v' X N P]|t v M]; try discriminate; assumption. - destruct H; assumption. - destruct H as [c [r [-> _]]]; discriminate. Qed.

Lemma written_read behind a text fuel max : written behind a text -> (length text + 2 <= fuel)%nat -> (nesting a < max)%nat ->
  exists j, read fuel (load_source text behind) max 0 = POk (a, j).
Proof.
  intros H F D. apply Nat.ltb_lt in D. destruct H as [t rest L S|g t rest G S|c g t rest C G S].
  - assert (E : load_source (t ++ rest) behind = t ++ rest).
    { destruct t as [|c t]; [destruct (spelled_head _ _ _ S); reflexivity|]. cbn in *. unfold isSpace.
      destruct (c <=? 32) eqn:Q; [apply Z.leb_le in Q; lia|reflexivity]. }
    rewrite E. rewrite app_length in F. pose proof (read_spelled [] [] t a rest fuel max S gap_nil ltac:(lia)) as R.
    cbn [app length] in R. rewrite D in R. eauto.
  - cbn [app length] in F. rewrite !app_length in F.
    pose proof (read_spelled [] (59 :: g) t a rest fuel max S G ltac:(lia)) as R. cbn [app length] in R. rewrite D in R.
    cbn. eauto.
  - cbn [app length] in F. rewrite !app_length in F. cbn [load_source]. unfold isSpace. apply Z.leb_le in C. rewrite C.
    pose proof (read_spelled [] g t a (rest ++ [behind]) fuel max S G ltac:(lia)) as R. cbn [app length] in R. rewrite D in R.
    rewrite <- !app_assoc. eauto.
Qed.

Theorem text_loads cfg pushpops short fuel max behind text e y g code y' g' :
  written behind (tree e) text -> (length text + 2 <= fuel)%nat -> (nesting (tree e) < max)%nat ->
  compiles cfg pushpops short fuel y g e code y' g' ->
  load_string cfg pushpops short false fuel max text behind y g = Ok (Loaded code y' g').
Proof.
  intros W F D [st [C [A [-> ->]]]]. destruct (written_read behind (tree e) text fuel max W F D) as [j R].
  unfold load_string. rewrite R. cbn [of_read bind]. rewrite C. cbn [bind]. destruct A as [A _]. rewrite A. reflexivity.
Qed.

(** What is loaded from a text that is written for a program is the code of the program. *)
Theorem loaded_compiles cfg pushpops short fuel max behind text e y g l :
  written behind (tree e) text -> (length text + 2 <= fuel)%nat -> (nesting (tree e) < max)%nat ->
  load_string cfg pushpops short false fuel max text behind y g = Ok l ->
  exists st, compileAST cfg fuel (tree e) (compile_state y g) = Ok (tt, st) /\
    assemble pushpops short false (Z.to_nat (label_number st)) (assembly st) = Ok (code_of l) /\
    known_symbols l = symbols_of st /\ known_globals l = globals_trie st.
Proof.
  intros W F D H. destruct (written_read behind (tree e) text fuel max W F D) as [j R].
  unfold load_string in H. rewrite R in H. cbn [of_read bind] in H.
  destruct (compileAST cfg fuel (tree e) (compile_state y g)) as [[[] st]|?| |]; try discriminate. cbn [bind] in H.
  destruct (assemble _ _ _ _ _) as [code|?| |] eqn:A; try discriminate. cbn [bind] in H. injection H as <-. exists st. auto.
Qed.

Theorem text_value cfg pushpops short fuel max behind text e y g code y' g' ids W f w s :
  callbacks_apart cfg -> session cfg y g -> good e = true ->
  written behind (tree e) text -> (length text + 2 <= fuel)%nat -> (nesting (tree e) < max)%nat ->
  compiles cfg pushpops short fuel y g e code y' g' -> numbering y' ids -> assignments_apart ids e ->
  eval f e (State [] (fun x => W (ids x))) = Ok (w, s) ->
  load_string cfg pushpops short false fuel max text behind y g = Ok (Loaded code y' g') /\
  session cfg y' g' /\
  computes ids code W (untouched ids e) w (globals_of s) (Z.to_nat (width [] e - 2)).
Proof.
  intros CA SE GO WR F D C N AA EV. split; [exact (text_loads cfg pushpops short fuel max behind text e y g code y' g' WR F D C)|].
  destruct C as [st [C [A [-> ->]]]]. split; [exact (ses_compile cfg y g fuel e st SE GO C)|].
  destruct (compiled_value cfg pushpops short e (symbols_of st) code ids W f w s CA) as [W' [_ H]]; try assumption.
  exists y, g, fuel, st. auto.
Qed.

(** ** Several texts *)
Lemma builds_cons cfg pushpops short y g fuel e st code : good e = true ->
  compileAST cfg fuel (tree e) (compile_state y g) = Ok (tt, st) -> assembles pushpops short st code ->
  forall progs y' g', builds cfg pushpops short (symbols_of st) (globals_trie st) progs y' g' -> builds cfg pushpops short y g ((e, code) :: progs) y' g'.
Proof.
  intros G C A progs y' g' H. induction H as [|progs y1 g1 fuel' e' st' code' B IH G' C' A'].
  - apply (builds_more cfg pushpops short y g [] y g fuel e st code); auto. constructor.
  - apply (builds_more cfg pushpops short y g ((e, code) :: progs) y1 g1 fuel' e' st' code'); auto.
Qed.
Lemma compile_all_builds cfg pushpops short fuel y g progs y' g' : compile_all cfg pushpops short fuel y g progs y' g' ->
  builds cfg pushpops short y g progs y' g'.
Proof.
  induction 1 as [|y g e code y1 g1 progs y' g' G [st [C [A [-> ->]]]] _ IH]; [constructor|].
  exact (builds_cons cfg pushpops short y g fuel e st code G C A progs y' g' IH).
Qed.
Theorem texts_load cfg pushpops short fuel max y g progs y' g' : compile_all cfg pushpops short fuel y g progs y' g' ->
  forall sources, Forall2 (text_of fuel max) sources progs ->
  load_strings cfg pushpops short false fuel max sources y g = Ok (map snd progs, y', g').
Proof.
  induction 1 as [|y g e code y1 g1 progs y' g' G C _ IH]; intros sources T; inversion T as [|[source behind] ? rest ? [W [F D]] T']; subst; [reflexivity|].
  cbn [load_strings fst snd] in *. rewrite (text_loads cfg pushpops short fuel max behind source e y g code y1 g1 W F D C). cbn [bind known_symbols known_globals code_of].
  rewrite (IH rest T'). reflexivity.
Qed.
Theorem texts_values cfg pushpops short fuel max y g sources progs y' g' ids f :
  callbacks_apart cfg -> session cfg y g -> compile_all cfg pushpops short fuel y g progs y' g' ->
  Forall2 (text_of fuel max) sources progs -> numbering y' ids -> Forall (assignments_apart ids) (map fst progs) ->
  forall W ws G', evals f (map fst progs) (fun x => W (ids x)) = Ok (ws, G') ->
  exists codes, load_strings cfg pushpops short false fuel max sources y g = Ok (codes, y', g') /\
  forall host v, idle v -> (forall x, represents ids v (ids x) (W (ids x))) ->
    (exists F v', (forall F', (F <= F')%nat -> execute_all host F' codes v = (Ok tt, v')) /\
       leaves ids v (map fst progs) ws v' /\ idle v' /\ forall x, represents ids v' (ids x) (G' x)) \/
    (exists before code after F v1, codes = before ++ code :: after /\
       (forall F', (F <= F')%nat -> execute_all host F' before v = (Ok tt, v1)) /\ runs_out host code v1).
Proof.
  intros CA SE C T N AA W ws G' E. exists (map snd progs). split; [exact (texts_load cfg pushpops short fuel max y g progs y' g' C sources T)|].
  apply compile_all_builds in C.
  destruct (session_values cfg pushpops short y g progs y' g' ids f CA SE C N AA W ws G' E) as [W' [_ H]].
  intros host v I R. destruct (H host v I R) as [L|[before [e [code [after [F [v1 [Q [X O]]]]]]]]]; [left; exact L|right].
  exists (map snd before), code, (map snd after), F, v1. split; [|split; assumption]. rewrite Q, map_app. reflexivity.
Qed.

(** ** Texts that are sure to load *)
Lemma labelled_assembles pushpops short N prog : well_labelled N prog -> positive_pops prog -> fits pushpops short prog ->
  exists code, assemble pushpops short false N prog = Ok code.
Proof.
  intros Pl Pp [R [Cl [Sm Sz]]]. set (q := if pushpops then peephole prog else prog) in *.
  assert (forall Q : ainstr -> Prop, Q AInternalNop -> (forall n, 0 <= n < 2 ^ 31 -> Q (APop n)) -> Forall Q prog -> Forall Q q) as K.
  { intros Q Q1 Q2 F. unfold q. destruct pushpops; [|exact F]. apply peephole_keeps; auto. }
  assert (well_labelled N q) as Wq by (unfold q; destruct pushpops; [apply peephole_labelled|]; auto).
  assert (Forall in_range q) as Rq by (apply K; [|intros n Hn|exact R]; cbn; auto; unfold S_Asm.word; lia).
  assert (Forall clean q) as Cq by (apply K; [|intros n Hn|exact Cl]; cbn; auto).
  assert (exists code, assemble false short false N q = Ok code) as [code A].
  { destruct short.
    - destruct (assemble_small false N q Wq Rq Cq (Sz eq_refl)) as [c [off [addr [E _]]]]. eauto.
    - destruct (assemble_plain_jumps false N q Wq Rq Cq) as [c [off [addr [E _]]]]. eauto. }
  exists code. unfold q in A. destruct pushpops; exact A.
Qed.

Lemma core_labelled cfg fuel e y g st : callbacks_apart cfg -> session cfg y g -> good e = true ->
  compileAST cfg fuel (tree e) (compile_state y g) = Ok (tt, st) ->
  well_labelled (Z.to_nat (label_number st)) (assembly st) /\ positive_pops (assembly st).
Proof.
  intros Hc S G E. destruct (session_ok _ _ _ Hc S) as [C N].
  destruct (program_shape cfg fuel e y g st Hc C N G E) as [C' [_ [_ [cde [n' [Ea [Cg El]]]]]]].
  destruct (naming_exists _ C') as [ids [Hag Hinj]].
  assert (program ids e (label_number st) (assembly st) cde n') as P by (constructor; auto using P_Sim.good_sane; exists 0; split; [lia|apply Cg; exact Hag]).
  split; [exact (program_labelled P)|exact (program_pops P)].
Qed.

Theorem text_runs cfg pushpops fuel max behind text e y g :
  callbacks_apart cfg -> (forall x, In x (callbacks cfg) -> plain_name x = true) -> session cfg y g ->
  good e = true -> formed (tree e) = true -> Z.of_nat (nesting (tree e)) < max_depth cfg -> (nesting (tree e) < max)%nat ->
  (4 * nesting (tree e) <= fuel)%nat -> (length text + 2 <= fuel)%nat -> written behind (tree e) text ->
  exists st, compileAST cfg fuel (tree e) (compile_state y g) = Ok (tt, st) /\
    (fits pushpops true (assembly st) ->
     exists code, load_string cfg pushpops true false fuel max text behind y g = Ok (Loaded code (symbols_of st) (globals_trie st)) /\
       session cfg (symbols_of st) (globals_trie st) /\
       forall ids W f w s, numbering (symbols_of st) ids -> assignments_apart ids e ->
         eval f e (State [] (fun x => W (ids x))) = Ok (w, s) ->
         computes ids code W (untouched ids e) w (globals_of s) (Z.to_nat (width [] e - 2))).
Proof.
  intros CA CP SE GO FO D1 D2 F1 F2 WR. destruct (accepted cfg CP fuel (tree e) y g FO D1 F1) as [st C]. exists st. split; [exact C|].
  intros FI. destruct (core_labelled cfg fuel e y g st CA SE GO C) as [L P].
  destruct (labelled_assembles pushpops true _ _ L P FI) as [code A]. exists code. destruct FI as [I1 [I2 [I3 I4]]].
  assert (CC : compiles cfg pushpops true fuel y g e code (symbols_of st) (globals_trie st)).
  { exists st. split; [exact C|]. split; [|auto]. split; [exact A|]. split; [exact I1|]. split; [exact I2|]. split; [exact I3|]. apply I4. reflexivity. }
  split; [exact (text_loads cfg pushpops true fuel max behind text e y g code _ _ WR F2 D2 CC)|].
  split; [exact (ses_compile cfg y g fuel e st SE GO C)|].
  intros ids W f w s N AA EV.
  exact (proj2 (proj2 (text_value cfg pushpops true fuel max behind text e y g code _ _ ids W f w s CA SE GO WR F2 D2 CC N AA EV))).
Qed.

(** Programs with functions load, too. *)
Theorem text_ready cfg pushpops short fuel max behind text a y g :
  (forall x, In x (callbacks cfg) -> plain_name x = true) -> consistent y -> incl (callbacks cfg) (sym_array y) ->
  regular false a = true -> formed a = true -> Z.of_nat (nesting a) < max_depth cfg -> (nesting a < max)%nat ->
  (4 * nesting a <= fuel)%nat -> (length text + 2 <= fuel)%nat -> written behind a text ->
  exists st, compileAST cfg fuel a (compile_state y g) = Ok (tt, st) /\
    (fits pushpops short (assembly st) ->
     exists code, load_string cfg pushpops short false fuel max text behind y g = Ok (Loaded code (symbols_of st) (globals_trie st)) /\
       assemble pushpops short false (Z.to_nat (label_number st)) (assembly st) = Ok code).
Proof.
  intros CP CY CI RE FO D1 D2 F1 F2 WR. destruct (accepted cfg CP fuel a y g FO D1 F1) as [st C]. exists st. split; [exact C|].
  assert (CO : forall n, In n (callbacks cfg) -> kind_of n = KPlain).
  { intros n I. specialize (CP n I). unfold plain_name in CP. destruct (kind_of n); congruence. }
  intros FI. destruct (compiled_sound cfg fuel a y g tt st CO CY CI RE C) as (f & last & So).
  destruct (labelled_assembles pushpops short _ _ (so_labelled _ _ _ _ _ So) (framed_pops _ _ (so_framed _ _ _ _ _ So)) FI) as [code A].
  exists code. split; [|exact A]. destruct (written_read behind a text fuel max WR F2 D2) as [j R].
  unfold load_string. rewrite R. cbn [of_read bind]. rewrite C. cbn [bind]. rewrite A. reflexivity.
Qed.
