(** What the compiler emits for core programs, as a relation over names, slots and labels. *)
From Coq Require Import String Ascii ZArith List Bool Lia Floats.SpecFloat.
From Flocq Require Import IEEE754.BinarySingleNaN.
From Verif Require Import M_Base M_Trie M_Instr M_Asm M_Parser M_Symbol M_Scope M_Compile.
From Verif Require Import S_Symbol S_Scope S_Compile P_Symbol P_Scope.
Import ListNotations.
Open Scope Z_scope.
Open Scope list_scope.

Definition move_down (dest n : Z) : list ainstr :=
  (if dest =? n - 1 then [] else [AMove 1 (n - dest)]) ++
  (if 0 <? n - dest - 1 then [APop (n - dest - 1)] else []).

Definition literal_code (l : literal) : ainstr :=
  match l with
  | LBool b => APushBoolean (if b then 1 else 0)
  | LInt n => APushInteger n
  | LFloat f => APushFloat (bits_of_float f)
  | LString s => APushString s
  end.

Definition is_var (e : exp) : bool := match e with EVar _ => true | _ => false end.
Definition is_lit (e : exp) : option literal := match e with ELit l => Some l | _ => None end.

(** Where a call finds the function it has just pushed. *)
Definition callee_slot (vs : list (bytes * Z)) (f : exp) (n : Z) : Z :=
  match f with EVar x => match find_name vs x with Some s => s | None => n - 1 end | _ => n - 1 end.

Section Comp.
  Variable ids : bytes -> Z.

  (** Quoted data: the code and the height after it. *)
  Inductive quoted : datum -> Z -> list ainstr -> Z -> Prop :=
  | q_lit l n : quoted (DLit l) n [literal_code l] (n + 1)
  | q_sym x n : quoted (DSym x) n [APushSymbol (ids x) x] (n + 1)
  | q_list ds n code n' : quoted_list ds n code n' -> quoted (DList ds) n code n'
  with quoted_list : list datum -> Z -> list ainstr -> Z -> Prop :=
  | q_nil n : quoted_list [] n [ANil] (n + 1)
  | q_cons d ds n c1 n1 c2 n2 : quoted_list ds n c1 n1 -> quoted d n1 c2 n2 ->
      quoted_list (d :: ds) n (c1 ++ c2 ++ [ABin BCons 1 (n2 - (n1 - 1))]) (n2 + 1).

  (** [gcomp vs n L e code n' L']: with the variables [vs] in scope, a stack of [n] values and labels
      from [L] on, [e] becomes [code], which leaves its value on a stack of [n'] values.  If [skip], an assignment to a
      global whose number is the position of the value may be missing (C41). *)
  Variable skip : Prop.
  Inductive gcomp : list (bytes * Z) -> Z -> Z -> exp -> list ainstr -> Z -> Z -> Prop :=
  | c_lit vs n L l : gcomp vs n L (ELit l) [literal_code l] (n + 1) L
  | c_nil vs n L : gcomp vs n L ENil [ANil] (n + 1) L
  | c_local vs n L x s : find_name vs x = Some s -> gcomp vs n L (EVar x) [APushIndex (n - s)] (n + 1) L
  | c_nonlocal vs n L x : find_name vs x = None -> gcomp vs n L (EVar x) [APushGlobal (ids x)] (n + 1) L
  | c_quote vs n L d code n' : quoted d n code n' -> gcomp vs n L (EQuote d) code n' L
  | c_un vs n L u e code n1 L1 i : garg vs n L e code n1 L1 i ->
      gcomp vs n L (EUn u e) (code ++ [AUn u (n1 - i)]) (n1 + 1) L1
  | c_bin vs n L b e1 e2 c1 n1 L1 i c2 n2 L2 j x y : garg vs n L e1 c1 n1 L1 i -> garg vs n1 L1 e2 c2 n2 L2 j ->
      (match b with BSetCar | BSetCdr => (x, y) = (j, i) | _ => (x, y) = (i, j) end) ->
      gcomp vs n L (EBin b e1 e2) (c1 ++ c2 ++ [ABin b (n2 - x) (n2 - y)]) (n2 + 1) L2
  | c_list vs n L es code n' L' : gcomp_list vs n L es code n' L' -> gcomp vs n L (EList es) code n' L'
  | c_if_lit vs n L l x y code n' L' : gcomp vs n L (if literal_true l then x else y) code n' L' ->
      gcomp vs n L (EIf (ELit l) x y) code n' L'
  | c_if vs n L c x y cc n1 L1 m cy ny Ly cx nx Lx : is_lit c = None -> gcomp vs n L c cc n1 L1 ->
      m = (if is_var c then n1 else n) ->
      gcomp vs m (L1 + 2) y cy ny Ly -> gcomp vs m Ly x cx nx Lx ->
      gcomp vs n L (EIf c x y)
        (cc ++ [ABrnz L1 (n1 - m)] ++ cy ++ move_down m ny ++ [AJump (L1 + 1); ALabel L1] ++
         cx ++ move_down m nx ++ [ALabel (L1 + 1)]) (m + 1) Lx
  | c_when_taken vs n L p l b code n' L' : literal_true l = p -> gcomp vs n L (EScope b) code n' L' ->
      gcomp vs n L (EWhen p (ELit l) b) code n' L'
  | c_when_not vs n L p l b : literal_true l = negb p -> gcomp vs n L (EWhen p (ELit l) b) [ANil] (n + 1) L
  | c_when vs n L c b cc n1 L1 m cb nb Lb : is_lit c = None -> gcomp vs n L c cc n1 L1 ->
      m = (if is_var c then n1 else n) ->
      gcomp vs m (L1 + 2) (EScope b) cb nb Lb ->
      gcomp vs n L (EWhen true c b)
        (cc ++ [ABrnz L1 (n1 - m)] ++ [ANil] ++ [AJump (L1 + 1); ALabel L1] ++ cb ++ [ALabel (L1 + 1)]) nb Lb
  | c_unless vs n L c b cc n1 L1 m cb nb Lb : is_lit c = None -> gcomp vs n L c cc n1 L1 ->
      m = (if is_var c then n1 else n) ->
      gcomp vs m (L1 + 2) (EScope b) cb nb Lb ->
      gcomp vs n L (EWhen false c b)
        (cc ++ [ABrnz L1 (n1 - m)] ++ cb ++ [AJump (L1 + 1); ALabel L1] ++ [ANil] ++ [ALabel (L1 + 1)]) (m + 1) Lb
  | c_while vs n L c b cb nb Lb cc n1 L1 : gcomp vs n (L + 2) (EScope b) cb nb Lb ->
      gcomp vs n Lb c cc n1 L1 ->
      gcomp vs n L (EWhile c b)
        ([AJump L; ALabel (L + 1)] ++ cb ++ [APop (nb - n)] ++ [ALabel L] ++ cc ++ [ABrnz (L + 1) (n1 - n)] ++ [ANil])
        (n + 1) L1
  | c_set_local vs n L x e code n1 L1 s : gcomp vs n L e code n1 L1 -> find_name vs x = Some s ->
      gcomp vs n L (ESet x e) (code ++ (if s =? n1 - 1 then [] else [AMove 1 (n1 - s)])) n1 L1
  | c_set_global vs n L x e code n1 L1 : gcomp vs n L e code n1 L1 -> find_name vs x = None ->
      gcomp vs n L (ESet x e) (code ++ [ASetGlobal 1 (ids x)]) n1 L1
  | c_global vs n L x e code n1 L1 : gcomp vs n L e code n1 L1 ->
      gcomp vs n L (EGlobal x e) (code ++ [ASetGlobal 1 (ids x)]) n1 L1
  | c_scope vs n L b code new n1 L1 : gcomp_items vs n L b code new n1 L1 ->
      gcomp vs n L (EScope b) (code ++ move_down n n1) (n + 1) L1
  | c_set_skip vs n L x e code n1 L1 : skip -> gcomp vs n L e code n1 L1 -> find_name vs x = None ->
      ids x = n1 - 1 -> gcomp vs n L (ESet x e) code n1 L1
  | c_global_skip vs n L x e code n1 L1 : skip -> gcomp vs n L e code n1 L1 ->
      ids x = n1 - 1 -> gcomp vs n L (EGlobal x e) code n1 L1
  | c_call vs n L f es code n' L' : gcomp_args vs (n + 1) L es code n' L' ->
      gcomp vs n L (ECall f es) ([APushGlobal (ids f)] ++ code ++ [AFuncall (n' - n) (zlength es)]) (n + 2) L'
  | c_funcall vs n L f es c1 n1 L1 code n' L' : gcomp vs n L f c1 n1 L1 -> gcomp_args vs n1 L1 es code n' L' ->
      gcomp vs n L (EFuncall f es) (c1 ++ code ++ [AFuncall (n' - callee_slot vs f n1) (zlength es)]) (n1 + 1) L'
  (** Operands: the slot of the value. *)
  with garg : list (bytes * Z) -> Z -> Z -> exp -> list ainstr -> Z -> Z -> Z -> Prop :=
  | arg_local vs n L x s : find_name vs x = Some s -> garg vs n L (EVar x) [] n L s
  | arg_other vs n L e code n' L' : (forall x, e = EVar x -> find_name vs x = None) ->
      gcomp vs n L e code n' L' -> garg vs n L e code n' L' (n' - 1)
  with gcomp_list : list (bytes * Z) -> Z -> Z -> list exp -> list ainstr -> Z -> Z -> Prop :=
  | l_nil vs n L : gcomp_list vs n L [] [ANil] (n + 1) L
  | l_cons vs n L e es c1 n1 L1 c2 n2 L2 i : gcomp_list vs n L es c1 n1 L1 -> garg vs n1 L1 e c2 n2 L2 i ->
      gcomp_list vs n L (e :: es) (c1 ++ c2 ++ [ABin BCons (n2 - i) (n2 - (n1 - 1))]) (n2 + 1) L2
  (** Sequences: [new] are the variables they declare. *)
  with gcomp_items : list (bytes * Z) -> Z -> Z -> list item -> list ainstr -> list (bytes * Z) -> Z -> Z -> Prop :=
  | i_nil vs n L : gcomp_items vs n L [] [ANil] [] (n + 1) L
  | i_do_last vs n L e code n1 L1 : gcomp vs n L e code n1 L1 ->
      gcomp_items vs n L [Do e] (code ++ move_down n n1) [] (n + 1) L1
  | i_do vs n L e code n1 L1 r cr new nr Lr : r <> [] -> gcomp vs n L e code n1 L1 ->
      gcomp_items vs n L1 r cr new nr Lr ->
      gcomp_items vs n L (Do e :: r) ((code ++ [APop (n1 - n)]) ++ cr) new nr Lr
  | i_def_last vs n L x e code n1 L1 : gcomp vs n L e code n1 L1 ->
      gcomp_items vs n L [Def x e] (code ++ move_down n n1 ++ [APushIndex 1]) [(x, n)] (n + 2) L1
  | i_def vs n L x e code n1 L1 r cr new nr Lr : r <> [] -> gcomp vs n L e code n1 L1 ->
      gcomp_items ((x, n) :: vs) (n + 1) L1 r cr new nr Lr ->
      gcomp_items vs n L (Def x e :: r) ((code ++ move_down n n1 ++ [APushIndex 1; APop 1]) ++ cr) (new ++ [(x, n)]) nr Lr
  | i_splice_last vs n L b code new n1 L1 : gcomp_items vs n L b code new n1 L1 ->
      gcomp_items vs n L [Splice b] code new n1 L1
  | i_splice vs n L b code new n1 L1 r cr new' nr Lr : r <> [] -> gcomp_items vs n L b code new n1 L1 ->
      gcomp_items (new ++ vs) (n1 - 1) L1 r cr new' nr Lr ->
      gcomp_items vs n L (Splice b :: r) ((code ++ [APop 1]) ++ cr) (new' ++ new) nr Lr
  (** Arguments of functions: one value each. *)
  with gcomp_args : list (bytes * Z) -> Z -> Z -> list exp -> list ainstr -> Z -> Z -> Prop :=
  | a_nil vs n L : gcomp_args vs n L [] [] n L
  | a_cons vs n L e es c1 n1 L1 c2 n2 L2 : gcomp vs n L e c1 n1 L1 -> gcomp_args vs (n + 1) L1 es c2 n2 L2 ->
      gcomp_args vs n L (e :: es) ((c1 ++ move_down n n1) ++ c2) n2 L2.
End Comp.

Scheme comp_ind' := Induction for gcomp Sort Prop
with arg_ind' := Induction for garg Sort Prop
with comp_list_ind' := Induction for gcomp_list Sort Prop
with comp_items_ind' := Induction for gcomp_items Sort Prop
with comp_args_ind' := Induction for gcomp_args Sort Prop.
Combined Scheme comp_mutind5 from comp_ind', arg_ind', comp_list_ind', comp_items_ind', comp_args_ind'.
Scheme quoted_ind' := Induction for quoted Sort Prop
with quoted_list_ind' := Induction for quoted_list Sort Prop.
Combined Scheme quoted_mutind from quoted_ind', quoted_list_ind'.

(** * Heights *)
Lemma quoted_height ids :
  (forall d n code n', quoted ids d n code n' -> n + 1 <= n') /\
  (forall ds n code n', quoted_list ids ds n code n' -> n + 1 <= n').
Proof. apply quoted_mutind; intros; lia. Qed.
Lemma gcomp_height5 ids skip :
  (forall vs n L e code n' L', gcomp ids skip vs n L e code n' L' -> n + 1 <= n' /\ L <= L') /\
  (forall vs n L e code n' L' i, garg ids skip vs n L e code n' L' i -> n <= n' /\ L <= L') /\
  (forall vs n L es code n' L', gcomp_list ids skip vs n L es code n' L' -> n + 1 <= n' /\ L <= L') /\
  (forall vs n L b code new n' L', gcomp_items ids skip vs n L b code new n' L' -> n + 1 <= n' /\ L <= L') /\
  (forall vs n L es code n' L', gcomp_args ids skip vs n L es code n' L' -> n' = n + zlength es /\ L <= L').
Proof.
  apply comp_mutind5; intros; try lia; try (destruct (is_var c); lia).
  - match goal with H : quoted _ _ _ _ _ |- _ => apply quoted_height in H end. lia.
  - unfold zlength. cbn. lia.
  - unfold zlength in *. cbn [length]. lia.
Qed.
Lemma gcomp_height ids skip :
  (forall vs n L e code n' L', gcomp ids skip vs n L e code n' L' -> n + 1 <= n' /\ L <= L') /\
  (forall vs n L e code n' L' i, garg ids skip vs n L e code n' L' i -> n <= n' /\ L <= L') /\
  (forall vs n L es code n' L', gcomp_list ids skip vs n L es code n' L' -> n + 1 <= n' /\ L <= L') /\
  (forall vs n L b code new n' L', gcomp_items ids skip vs n L b code new n' L' -> n + 1 <= n' /\ L <= L').
Proof. destruct (gcomp_height5 ids skip) as [A [B [C [D _]]]]. auto. Qed.
Lemma args_height ids skip vs n L es code n' L' : gcomp_args ids skip vs n L es code n' L' -> n' = n + zlength es /\ L <= L'.
Proof. apply (gcomp_height5 ids skip). Qed.

(** Without and with missing assignments. *)
Notation comp ids := (gcomp ids False).
Notation arg ids := (garg ids False).
Notation comp_list ids := (gcomp_list ids False).
Notation comp_items ids := (gcomp_items ids False).
Notation comp_args ids := (gcomp_args ids False).
Notation comp_height ids := (gcomp_height ids False).
