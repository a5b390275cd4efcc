(** Texts for the complete loader (C68, C69). *)
From Coq Require Import String Ascii ZArith List Bool Lia.
From Verif Require Import M_Base M_Trie M_Heap M_Instr M_VM M_Asm M_Parser M_Symbol M_Scope M_Convert M_Compile M_Load.
From Verif Require Import S_Symbol S_Scope S_Asm S_Compile S_Reader S_Heap S_VM S_Types S_Run S_Program S_Load S_Convert S_Accept S_Macro.
From Verif Require Import P_Program P_Load P_Comptime3.
From Verif Require M_Macro P_Macro.
Import ListNotations.
Open Scope Z_scope.
Open Scope list_scope.

Theorem text_complete cfg pushpops fuel max behind text e y g :
  callbacks_apart cfg -> (forall x, In x (callbacks cfg) -> plain_name x = true) -> session cfg y g ->
  good e = true -> formed (tree e) = true -> Z.of_nat (nesting (tree e)) < max_depth cfg -> (nesting (tree e) < max)%nat ->
  (4 * nesting (tree e) <= fuel)%nat -> (length text + 2 <= fuel)%nat -> written behind (tree e) text ->
  exists st, compileAST cfg fuel (tree e) (compile_state y g) = Ok (tt, st) /\
    (fits pushpops true (assembly st) ->
     exists code, (forall host steps gc v, M_Macro.load_string cfg pushpops true false host steps fuel max text behind y g gc v =
         Ok (M_Macro.MLoaded code (symbols_of st) (globals_trie st) gc v)) /\
       forall ids W f w s, numbering (symbols_of st) ids -> assignments_apart ids e ->
         eval f e (State [] (fun x => W (ids x))) = Ok (w, s) ->
         computes ids code W (untouched ids e) w (globals_of s) (Z.to_nat (width [] e - 2))).
Proof.
  intros H1 H2 H3 H4 H5 H6 H7 H8 H9 H10. destruct (text_runs cfg pushpops fuel max behind text e y g H1 H2 H3 H4 H5 H6 H7 H8 H9 H10) as [st [C K]].
  exists st. split; [exact C|]. intros F. destruct (K F) as [code [L [_ V]]]. exists code. split; [|exact V].
  intros host steps gc v. apply (P_Macro.load_same cfg pushpops true false host steps fuel max text behind y g gc v _ L).
Qed.

Theorem comptime_text cfg pushpops short fuel max behind text e y g gc c1 bytes ids W f w s st code :
  callbacks_apart cfg -> ~ In (word "comptime") (callbacks cfg) -> ~ In (word "__cons") (callbacks cfg) -> sessions cfg y g gc ->
  written behind (at_compile_time (tree e)) text -> (length text + 2 <= S (S fuel))%nat -> (nesting (at_compile_time (tree e)) < max)%nat ->
  good e = true -> second_code cfg pushpops short fuel 1 e (compile_state y gc) y c1 bytes ->
  (compile cfg fuel 1 (Compound (tree (source w)) true) >>> finish) (compile_state (symbols_of c1) g) = Ok (tt, st) ->
  assembles pushpops short st code -> numbering (symbols_of st) ids -> assignments_apart ids e ->
  eval f e (State [] (fun x => W (ids x))) = Ok (w, s) -> constant_value w ->
  sessions cfg (symbols_of st) (globals_trie st) (globals_trie c1) /\
  (forall W', exists extra, computes ids code W' (fun _ => True) w (fun x => W' (ids x)) extra) /\
  exists n, forall host v, idle v -> (forall x, represents ids v (ids x) (W (ids x))) ->
    (exists F v', resumes ids (untouched ids e) v (globals_of s) v' /\
       forall steps, (F <= steps)%nat ->
         M_Macro.load_string cfg pushpops short false host steps (S (S fuel)) max text behind y g gc v =
         Ok (M_Macro.MLoaded code (symbols_of st) (globals_trie st) (globals_trie c1) v')) \/
    (runs_out host (bytes ++ [165]) v /\ (length (free v) < n)%nat).
Proof.
  intros Hc Hk Hq Ss Wr Fu Ne G Sc Cf As Hn Ap E Cw.
  destruct (comptime_program cfg pushpops short fuel e y g gc c1 bytes ids W f w s st code Hc Hk Hq Ss G Sc Cf As Hn Ap E Cw) as [S1 [V [n K]]].
  split; [exact S1|]. split; [exact V|]. exists n. intros host v I R. destruct (K host v I R) as [[F [v' [c2 [Re [Se [Eg X]]]]]]|X]; [left|right; exact X].
  exists F, v'. split; [exact Re|]. intros steps Hs. destruct (written_read behind _ text (S (S fuel)) max Wr Fu Ne) as [j Rd].
  unfold M_Macro.load_string. rewrite Rd. cbn [of_read bind]. rewrite (X steps Hs). cbn [bind M_Macro.runtime M_Macro.comptime M_Macro.machine].
  rewrite (proj1 As). cbn [bind]. rewrite Eg. reflexivity.
Qed.
