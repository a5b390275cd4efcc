(** Programs with functions, and programs whose functions leave their part of the stack (C58). *)
From Coq Require Import String Ascii ZArith List Lia Bool.
From Verif Require Import M_Base M_Trie M_Instr M_Asm M_Parser M_Symbol M_Scope M_Compile S_Symbol S_Compile S_Frame P_Symbol P_Frame11.
Import ListNotations.
Open Scope Z_scope.
Open Scope list_scope.

Definition f_cfg := Config [word "host"] 100 true.
Definition f_names := symbols_after [Intern (word "host")].
Definition f_compile (t : ast) : cstate :=
  match compileAST f_cfg 200 t (compile_state f_names (trie_init (-1))) with Ok (_, st) => st | _ => compile_state f_names (trie_init (-1)) end.
Definition nm (s : string) := AstIdentifier (word s).
Definition fm (l : list ast) := AstExpression l.

(** (() (var n 1)
        (defun sum (a &rest more) (lambda (x) (setq n (+ n x)) (apply sum a more)))
        (while (< n 10) (setq n (+ n 1)))
        (if n (vector 1 n) (host n))
        (funcall (sum 1 2) 3)) *)
Definition f_program : ast :=
  fm [ fm [];
    fm [nm "var"; nm "n"; AstInt 1];
    fm [nm "defun"; nm "sum"; fm [nm "a"; nm "&rest"; nm "more"];
      fm [nm "lambda"; fm [nm "x"]; fm [nm "setq"; nm "n"; fm [nm "+"; nm "n"; nm "x"]]; fm [nm "apply"; nm "sum"; nm "a"; nm "more"]]];
    fm [nm "while"; fm [nm "<"; nm "n"; AstInt 10]; fm [nm "setq"; nm "n"; fm [nm "+"; nm "n"; AstInt 1]]];
    fm [nm "if"; nm "n"; fm [nm "vector"; AstInt 1; nm "n"]; fm [nm "host"; nm "n"]];
    fm [nm "funcall"; fm [nm "sum"; AstInt 1; AstInt 2]; AstInt 3] ].

Lemma f_callbacks : forall n, In n (callbacks f_cfg) -> kind_of n = KPlain.
Proof. intros n [<-|[]]. vm_compute. reflexivity. Qed.
Lemma f_consistent : consistent f_names.
Proof. apply after_ok. Qed.
Lemma f_linked : incl (callbacks f_cfg) (sym_array f_names).
Proof. intros n [<-|[]]. vm_compute. left. reflexivity. Qed.
Lemma f_regular : regular false f_program = true.
Proof. vm_compute. reflexivity. Qed.
Lemma f_compiles : compileAST f_cfg 200 f_program (compile_state f_names (trie_init (-1))) = Ok (tt, f_compile f_program).
Proof. vm_compute. reflexivity. Qed.
Lemma f_closures :
  nth_error (assembly (f_compile f_program)) 25 = Some (APushClosure true 1 1 [1]) /\
  nth_error (assembly (f_compile f_program)) 21 = Some (APushClosure false 3 1 [-1; 2; 1]) /\
  nth_error (assembly (f_compile f_program)) 17 = Some (AReturn 1) /\
  nth_error (assembly (f_compile f_program)) 23 = Some (AReturn 2).
Proof. vm_compute. auto. Qed.
Lemma f_meets : (forall n, In n (callbacks f_cfg) -> kind_of n = KPlain) /\ consistent f_names /\ incl (callbacks f_cfg) (sym_array f_names) /\
  regular false f_program = true /\ compileAST f_cfg 200 f_program (compile_state f_names (trie_init (-1))) = Ok (tt, f_compile f_program) /\
  nth_error (assembly (f_compile f_program)) 25 = Some (APushClosure true 1 1 [1]) /\
  nth_error (assembly (f_compile f_program)) 21 = Some (APushClosure false 3 1 [-1; 2; 1]).
Proof.
  split; [exact f_callbacks|]. split; [exact f_consistent|]. split; [exact f_linked|]. split; [exact f_regular|]. split; [exact f_compiles|].
  split; apply f_closures.
Qed.

(** The height behind code that only pushes and pops. *)
Fixpoint straight (c : list ainstr) (h : Z) : option Z :=
  match c with
  | [] => Some h
  | a :: r =>
    match a with
    | ANil | APushInteger _ | APushIndex _ | APushGlobal _ | ANop | APop _ | AMove _ _ =>
      match effect a with Some d => straight r (h + d) | None => None end
    | AFuncall _ n => straight r (h - n + 1)
    | ALabel _ => straight r h
    | _ => None
    end
  end.
Lemma straight_height prog y : framed prog y -> forall c k h h', (forall i a, nth_error c i = Some a -> nth_error prog (k + i) = Some a) ->
  height y k = h -> straight c h = Some h' -> height y (k + length c) = h'.
Proof.
  intros (_ & _ & _ & F). induction c as [|a c IH]; intros k h h' N H E; cbn [straight] in E.
  - injection E as <-. cbn. rewrite Nat.add_0_r. exact H.
  - pose proof (N O a eq_refl) as N0. rewrite Nat.add_0_r in N0. destruct (F k a N0) as [_ Fa].
    assert (NS : forall i b, nth_error c i = Some b -> nth_error prog (S k + i) = Some b).
    { intros i b Hb. replace (S k + i)%nat with (k + S i)%nat by lia. apply N. exact Hb. }
    replace (k + length (a :: c))%nat with (S k + length c)%nat by (cbn; lia).
    destruct a; cbn [effect] in E; try discriminate E; cbn [frame_at effect] in Fa.
    all: eapply (IH (S k)); [exact NS| |exact E].
    all: try (destruct Fa as ((d & Ed & Hd & _) & _); injection Ed as <-; rewrite Hd, H; reflexivity).
    all: try (destruct Fa as (_ & _ & Hd & _); rewrite Hd, H; reflexivity).
    destruct Fa as [Hd _]. congruence.
Qed.

(** (nop): no value when the program ends. *)
Definition nop_program : ast := fm [nm "nop"].
Lemma nop_unframed :
  compileAST f_cfg 200 nop_program (compile_state f_names (trie_init (-1))) = Ok (tt, f_compile nop_program) /\
  forall y, ~ framed (assembly (f_compile nop_program)) y.
Proof.
  split; [vm_compute; reflexivity|]. intros y F.
  assert (E : assembly (f_compile nop_program) = [ANop; AHalt]) by (vm_compute; reflexivity). rewrite E in F.
  pose proof F as (H0 & _ & _ & G).
  pose proof (straight_height _ _ F [ANop] O 0 0) as S. cbn [length Nat.add] in S.
  specialize (S ltac:(intros [|[|i]] a Hi; cbn in *; auto; discriminate) H0 eq_refl).
  destruct (G 1%nat AHalt eq_refl) as [_ [X _]]. lia.
Qed.

(** (lambda () (f 1 ... 1)) with 256 arguments: the number of arguments is kept modulo 256. *)
Definition many_program : ast := fm [nm "lambda"; fm []; fm (nm "f" :: repeat (AstInt 1) 256)].
Definition many_code : list ainstr := ALabel 1 :: APushGlobal 1 :: repeat (APushInteger 1) 256 ++ [AFuncall 257 0; AMove 1 2; APop 1].
Definition many_all : list ainstr := AJump 0 :: many_code ++ [AReturn 0; ALabel 0; APushClosure false 1 0 []; AHalt].
Lemma many_unframed :
  compileAST f_cfg 200 many_program (compile_state f_names (trie_init (-1))) = Ok (tt, f_compile many_program) /\
  forall y, ~ framed (assembly (f_compile many_program)) y.
Proof.
  split; [vm_compute; reflexivity|]. intros y F.
  assert (E : assembly (f_compile many_program) = many_all) by (vm_compute; reflexivity). rewrite E in F. clear E.
  pose proof F as (_ & _ & _ & G).
  assert (H1 : height y 1 = 0).
  { destruct (G 264%nat (APushClosure false 1 0 [])) as [_ (_ & _ & _ & _ & _ & (j & _ & Hj & _ & U) & _)]; [vm_compute; reflexivity|].
    rewrite (U 1%nat); [rewrite Hj; reflexivity|vm_compute; reflexivity]. }
  assert (H2 : height y (1 + length many_code) = 257).
  { apply (straight_height _ _ F many_code 1 0); [|exact H1|vm_compute; reflexivity].
    intros i a Hi. unfold many_all. cbn [Nat.add nth_error]. rewrite nth_error_app1; [exact Hi|]. apply nth_error_Some. congruence. }
  destruct (G (1 + length many_code)%nat (AReturn 0)) as [_ (_ & X & _)]; [vm_compute; reflexivity|]. lia.
Qed.
