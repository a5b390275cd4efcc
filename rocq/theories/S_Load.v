(** Texts of core programs (C64). *)
From Coq Require Import ZArith List Bool.
From Verif Require Import M_Base M_Trie M_Symbol M_Asm M_Parser M_Compile S_Reader S_Asm S_Compile S_Program.
Import ListNotations.
Open Scope Z_scope.

(** [text] is written for the tree [a]: white space and comments, the expression, and anything
    that does not change how the expression is read.  [behind] is the byte behind the text: it
    matters when the text starts with a space (C38). *)
Inductive written (behind : Z) (a : ast) : list Z -> Prop :=
| written_now t rest : 32 < hd 33 t -> spells t a rest -> written behind a (t ++ rest)
| written_comment g t rest : gap (59 :: g) -> spells t a rest -> written behind a (59 :: g ++ t ++ rest)
| written_space c g t rest : c <= 32 -> gap g -> spells t a (rest ++ [behind]) -> written behind a (c :: g ++ t ++ rest).

(** The code of [e] is made and it fits (see [assembles] in S_Program). *)
Definition compiles (cfg : config) (pushpops short : bool) (fuel : nat) (y : symbols) (g : trie) (e : exp) (code : list Z)
    (y' : symbols) (g' : trie) : Prop :=
  exists st, compileAST cfg fuel (tree e) (compile_state y g) = Ok (tt, st) /\ assembles pushpops short st code /\
    y' = symbols_of st /\ g' = globals_trie st.

(** Several programs, one after the other; [text_of] says which text is written for which. *)
Inductive compile_all (cfg : config) (pushpops short : bool) (fuel : nat) : symbols -> trie -> list (exp * list Z) -> symbols -> trie -> Prop :=
| ac_none y g : compile_all cfg pushpops short fuel y g [] y g
| ac_more y g e code y1 g1 progs y' g' : good e = true -> compiles cfg pushpops short fuel y g e code y1 g1 ->
    compile_all cfg pushpops short fuel y1 g1 progs y' g' -> compile_all cfg pushpops short fuel y g ((e, code) :: progs) y' g'.

Definition text_of (fuel max : nat) (source : list Z * Z) (prog : exp * list Z) : Prop :=
  written (snd source) (tree (fst prog)) (fst source) /\ (length (fst source) + 2 <= fuel)%nat /\ (nesting (tree (fst prog)) < max)%nat.

(** The operands of the compiled instructions fit into their fields, and the code is short enough for
    the jumps (short jumps only matter to an assembler that optimises jumps). *)
Definition fits (pushpops short : bool) (prog : list ainstr) : Prop :=
  Forall in_range prog /\ Forall clean prog /\ pops prog < 2 ^ 31 /\
  (short = true -> least_size false (if pushpops then peephole prog else prog) <= 127).
