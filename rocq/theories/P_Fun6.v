(** Programs with functions: from the text to the value (C71). *)
From Coq Require Import String ZArith List Lia Bool.
From Verif Require Import M_Base M_Trie M_Heap M_Instr M_VM M_Asm M_Parser M_Symbol M_Compile M_Load S_Reader S_Asm S_Symbol S_Compile S_Run S_Program S_Load S_Accept S_Fun.
From Verif Require Import P_Symbol P_Accept4 P_Load P_Correct2 P_Fun1 P_Fun2 P_Fun3 P_Fun4.
Import ListNotations.
Open Scope Z_scope.
Open Scope list_scope.

Lemma plain_lambda cfg : (forall x, In x (callbacks cfg) -> plain_name x = true) -> ~ In (word "lambda") (callbacks cfg).
Proof. intros H I. specialize (H _ I). vm_compute in H. discriminate. Qed.

Theorem fun_text cfg pushpops short fuel max behind text ds b y g :
  callbacks_apart cfg -> (forall x, In x (callbacks cfg) -> plain_name x = true) -> session cfg y g -> ds <> [] -> b <> [] ->
  forallb (good_fundef (N := fun_names cfg)) ds = true -> forallb (good_item (N := fun_names cfg)) b = true ->
  formed (fun_program ds b) = true -> Z.of_nat (nesting (fun_program ds b)) < max_depth cfg -> (nesting (fun_program ds b) < max)%nat ->
  (4 * nesting (fun_program ds b) <= fuel)%nat -> (length text + 2 <= fuel)%nat -> written behind (fun_program ds b) text ->
  exists st, compileAST cfg fuel (fun_program ds b) (compile_state y g) = Ok (tt, st) /\
    forall ids, numbering (symbols_of st) ids -> fun_apart ids ds b -> fits pushpops short (assembly st) ->
    exists code, load_string cfg pushpops short false fuel max text behind y g = Ok (Loaded code (symbols_of st) (globals_trie st)) /\
      forall W f w s, short = true \/ zlength code < 2 ^ 31 -> fun_eval f ds b (fun x => W (ids x)) = Ok (w, s) ->
        fun_computes ids ds code W (fun_untouched ids ds b) w (globals_of s).
Proof.
  intros CA CP SE Nd Nb Gd Gb FO D1 D2 F1 F2 WR. destruct (accepted cfg CP fuel (fun_program ds b) y g FO D1 F1) as [st C]. exists st. split; [exact C|].
  intros ids [Hag Hinj] AP FI. pose proof (plain_lambda cfg CP) as Hl. destruct (session_ok _ _ _ CA SE) as [K [N1 N2]].
  destruct (fun_shape (NU := fun_names cfg) (fun_names_self cfg) cfg CA Hl (fun_names_callees cfg) fuel ds b y g st K N1 N2 Nd Nb Gd Gb C)
    as [_ [_ [_ [c1 [L1 [c2 [Ea F]]]]]]].
  destruct (F ids Hag) as [Fc Fb].
  destruct (placed_exists _ _ _ _ _ _ Fc) with (p := O) as [es Pl]; [intros d I; apply AP, I|].
  assert (fun_code ids ds b (label_number st) (assembly st) es c1 c2 L1) as P by (constructor; assumption).
  destruct (labelled_assembles pushpops short _ _ (fun_labelled P) (fun_pops _ Hinj _ _ _ _ _ _ _ _ P) FI) as [code A]. exists code.
  destruct (written_read behind _ text fuel max WR F2 D2) as [j R].
  split; [unfold load_string; rewrite R; cbn [of_read bind]; rewrite C; cbn [bind]; rewrite A; reflexivity|].
  intros W f w s SZ E. apply (fun_value cfg pushpops short ds b (symbols_of st) code ids W f w s CA Hl); [|split; assumption|exact AP|exact E].
  exists y, g, fuel, st. destruct FI as [I1 [I2 [I3 I4]]]. repeat (split; [assumption || reflexivity|]).
  destruct short; [apply I4; reflexivity|destruct SZ; [discriminate|assumption]].
Qed.
