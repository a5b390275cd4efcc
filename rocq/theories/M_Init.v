(** The forms of the language as they are registered: duckLisp.c duckLisp_addGenerator, duckLisp_addParserAction
    and the tables and loops of duckLisp_init.  The texts of the inferrer's declarations are read as in
    parenthesis-inferrer.c duckLisp_inferParentheses. *)
From Coq Require Import String ZArith List Bool.
From Verif Require Import M_Base M_Trie M_Heap M_Instr M_Symbol M_Parser M_Scope M_Compile M_Infer M_Link.
Import ListNotations.
Open Scope Z_scope.
Open Scope list_scope.

(** duckLisp.h 128-141 duckLisp_parenthesisInferrer_declarationPrototype_t; without a script, the script is empty. *)
Record prototype := Prototype { p_name : bytes; p_type : bytes; p_script : bytes }.

(** duckLisp.h 155-207 duckLisp_t: the parts registering works on.  The trie has the index of a function in
    the array. *)
Record registered (F : Type) := Registered { r_trie : trie; r_array : list F }.
Arguments Registered {F}. Arguments r_trie {F}. Arguments r_array {F}.

(** duckLisp.c 2328-2334 and 2358-2364: what duckLisp_addParserAction and duckLisp_addGenerator have in common.
    Simplification: memory suffices. *)
Definition register {F} (callback : F) (name : bytes) (r : registered F) : registered F :=
  Registered (trie_insert (r_trie r) name (Z.of_nat (length (r_array r)))) (r_array r ++ [callback]).

(** duckLisp.c 1936-1940, 1967-1971: none registered. *)
Definition none_registered {F} : registered F := Registered (trie_init (-1)) [].

(** duckLisp.c 2340-2393 duckLisp_addGenerator.  Simplification: memory suffices. *)
Definition addGenerator {F} (callback : F) (name typeString declarationScript : bytes) (s : registered F * list prototype) : registered F * list prototype :=
  (register callback name (fst s),
   if (0 <? length typeString)%nat then snd s ++ [Prototype name typeString declarationScript] else snd s).

(** duckLisp.c 1614-1622: an entry of the table of generators, and the loop 1986-2005 over it. *)
Record entry_of (F : Type) := entry { e_name : bytes; e_callback : F; e_type : bytes; e_script : bytes }.
Arguments entry {F}. Arguments e_name {F}. Arguments e_callback {F}. Arguments e_type {F}. Arguments e_script {F}.
Fixpoint addGenerators {F} (es : list (entry_of F)) (s : registered F * list prototype) : registered F * list prototype :=
  match es with
  | [] => s
  | e :: r => addGenerators r (addGenerator (e_callback e) (e_name e) (e_type e) (e_script e) s)
  end.

(** duckLisp.c 1120-1158: the index found (630-637) selects the generator; dl_array_get fails outside of the
    array. *)
Definition find_registered {F} (r : registered F) (name : bytes) : res (option F) :=
  let i := trie_find (r_trie r) name in
  if i =? -1 then Ok None
  else if i <? 0 then Err invalidValue
  else match nth_error (r_array r) (Z.to_nat i) with Some f => Ok (Some f) | None => Err invalidValue end.

(** parser.c 1357-1384 runAction: the action for a tree, if there is one. *)
Definition find_action {F} (r : registered F) (a : ast) : res (option F) :=
  match a with
  | AstExpression (AstIdentifier name :: _) | AstExpression (AstCallback name :: _)
  | AstLiteral (AstIdentifier name :: _) | AstLiteral (AstCallback name :: _) =>
      let i := trie_find (r_trie r) name in
      if 0 <=? i then match nth_error (r_array r) (Z.to_nat i) with Some f => Ok (Some f) | None => Err invalidValue end else Ok None
  | _ => Ok None
  end.

(** The C functions behind the forms: those of M_Compile, and the two of M_Macro (generators.c 1201-1312
    comptime, 1314-1428 defmacro). *)
Inductive form := Form (g : generator) | Defmacro | Comptime.
(** duckLisp.c 1632-1647. *)
Definition variable_script : bytes := str "(declare-identifier (infer-and-get-next-argument) (quote L))".
(** duckLisp.c 1669-1731 (the scripts of __defun, defun, __defmacro and defmacro are equal). *)
Definition defun_script : bytes := str " (  (var name (infer-and-get-next-argument))  (var parameters (infer-and-get-next-argument))  (var type ())  (   (var parameters parameters)   (while parameters          (if (= (quote &rest) (car parameters))              (setq type (cons 0 (cons (quote &rest) type)))              (setq type (cons (quote I) type)))          (setq parameters (cdr parameters))))  (   (var type2 type)   (setq type ())   (while type2          (setq type (cons (car type2) type))          (setq type2 (cdr type2))))  (declaration-scope   (while parameters          (unless (= (quote &rest) (car parameters))                  (declare-identifier (car parameters) (quote L)))          (setq parameters (cdr parameters)))   (declare-identifier (quote self) type)   (infer-and-get-next-argument))  (declare-identifier name type)) ".
(** duckLisp.c 1734-1786. *)
Definition lambda_script : bytes := str " (  (var parameters (infer-and-get-next-argument))  (var type ())  (   (var parameters parameters)   (while parameters          (if (= (quote &rest) (car parameters))              (setq type (cons 0 (cons (quote &rest) type)))              (setq type (cons (quote I) type)))          (setq parameters (cdr parameters))))  (   (var type2 type)   (setq type ())   (while type2          (setq type (cons (car type2) type))          (setq type2 (cdr type2))))  (declaration-scope   (while parameters          (unless (= (quote &rest) (car parameters))                  (declare-identifier (car parameters) (quote L)))          (setq parameters (cdr parameters)))   (declare-identifier (quote self) type)   (infer-and-get-next-argument))) ".

(** duckLisp.c 1623-1907: the table of generators. *)
Definition generators : list (entry_of form) :=
  [
    entry (str "__declare") (Form GDeclare) (str "(L L &rest 0 I)") [];
    entry (str "declare") (Form GDeclare) (str "(L L &rest 0 I)") [];
    entry (str "__nop") (Form GNop) (str "()") [];
    entry (str "nop") (Form GNop) (str "()") [];
    entry (str "__funcall") (Form GFuncall) (str "(I &rest 1 I)") [];
    entry (str "funcall") (Form GFuncall) (str "(I &rest 1 I)") [];
    entry (str "__apply") (Form GApply) (str "(I &rest 1 I)") [];
    entry (str "apply") (Form GApply) (str "(I &rest 1 I)") [];
    entry (str "__var") (Form GVar) (str "(L I)") variable_script;
    entry (str "var") (Form GVar) (str "(L I)") variable_script;
    entry (str "__global") (Form GGlobal) (str "(L I)") variable_script;
    entry (str "global") (Form GGlobal) (str "(L I)") variable_script;
    entry (str "__setq") (Form GSetq) (str "(L I)") [];
    entry (str "setq") (Form GSetq) (str "(L I)") [];
    entry (str "__not") (Form (GUn UNot)) (str "(I)") [];
    entry (str "not") (Form (GUn UNot)) (str "(I)") [];
    entry (str "__*") (Form (GBin BMul false)) (str "(I I)") [];
    entry (str "*") (Form (GBin BMul false)) (str "(I I)") [];
    entry (str "__/") (Form (GBin BDiv false)) (str "(I I)") [];
    entry (str "/") (Form (GBin BDiv false)) (str "(I I)") [];
    entry (str "__+") (Form (GBin BAdd false)) (str "(I I)") [];
    entry (str "+") (Form (GBin BAdd false)) (str "(I I)") [];
    entry (str "__-") (Form (GBin BSub false)) (str "(I I)") [];
    entry (str "-") (Form (GBin BSub false)) (str "(I I)") [];
    entry (str "__while") (Form GWhile) (str "(I &rest 1 I)") [];
    entry (str "while") (Form GWhile) (str "(I &rest 1 I)") [];
    entry (str "__if") (Form GIf) (str "(I I I)") [];
    entry (str "if") (Form GIf) (str "(I I I)") [];
    entry (str "__when") (Form GWhen) (str "(I &rest 1 I)") [];
    entry (str "when") (Form GWhen) (str "(I &rest 1 I)") [];
    entry (str "__unless") (Form GUnless) (str "(I &rest 1 I)") [];
    entry (str "unless") (Form GUnless) (str "(I &rest 1 I)") [];
    entry (str "__=") (Form (GBin BEqual false)) (str "(I I)") [];
    entry (str "=") (Form (GBin BEqual false)) (str "(I I)") [];
    entry (str "__<") (Form (GBin BLess false)) (str "(I I)") [];
    entry (str "<") (Form (GBin BLess false)) (str "(I I)") [];
    entry (str "__>") (Form (GBin BGreater false)) (str "(I I)") [];
    entry (str ">") (Form (GBin BGreater false)) (str "(I I)") [];
    entry (str "__defun") (Form GDefun) (str "(L L &rest 1 I)") defun_script;
    entry (str "defun") (Form GDefun) (str "(L L &rest 1 I)") defun_script;
    entry (0 :: str "defun:lambda") (Form GLambda) ([]) [];
    entry (0 :: str "defmacro:lambda") (Form GLambda) ([]) [];
    entry (str "__lambda") (Form GLambda) (str "(L &rest 1 I)") lambda_script;
    entry (str "lambda") (Form GLambda) (str "(L &rest 1 I)") lambda_script;
    entry (str "__defmacro") (Defmacro) (str "(L L &rest 1 I)") defun_script;
    entry (str "defmacro") (Defmacro) (str "(L L &rest 1 I)") defun_script;
    entry (str "__noscope") (Form GNoscope) (str "(&rest 0 I)") [];
    entry (str "noscope") (Form GNoscope) (str "(&rest 0 I)") [];
    entry (str "__comptime") (Comptime) (str "(&rest 1 I)") [];
    entry (str "comptime") (Comptime) (str "(&rest 1 I)") [];
    entry (str "__quote") (Form GQuote) (str "(I)") [];
    entry (str "quote") (Form GQuote) (str "(I)") [];
    entry (str "__list") (Form GList) (str "(&rest 0 I)") [];
    entry (str "list") (Form GList) (str "(&rest 0 I)") [];
    entry (str "__vector") (Form GVector) (str "(&rest 0 I)") [];
    entry (str "vector") (Form GVector) (str "(&rest 0 I)") [];
    entry (str "__make-vector") (Form (GBin BMakeVector false)) (str "(I I)") [];
    entry (str "make-vector") (Form (GBin BMakeVector false)) (str "(I I)") [];
    entry (str "__get-vector-element") (Form (GBin BGetVecElt false)) (str "(I I)") [];
    entry (str "get-vector-element") (Form (GBin BGetVecElt false)) (str "(I I)") [];
    entry (str "__set-vector-element") (Form (GTern TSetVecElt)) (str "(I I I)") [];
    entry (str "set-vector-element") (Form (GTern TSetVecElt)) (str "(I I I)") [];
    entry (str "__cons") (Form (GBin BCons false)) (str "(I I)") [];
    entry (str "cons") (Form (GBin BCons false)) (str "(I I)") [];
    entry (str "__car") (Form (GUn UCar)) (str "(I)") [];
    entry (str "car") (Form (GUn UCar)) (str "(I)") [];
    entry (str "__cdr") (Form (GUn UCdr)) (str "(I)") [];
    entry (str "cdr") (Form (GUn UCdr)) (str "(I)") [];
    entry (str "__set-car") (Form (GBin BSetCar true)) (str "(I I)") [];
    entry (str "set-car") (Form (GBin BSetCar true)) (str "(I I)") [];
    entry (str "__set-cdr") (Form (GBin BSetCdr true)) (str "(I I)") [];
    entry (str "set-cdr") (Form (GBin BSetCdr true)) (str "(I I)") [];
    entry (str "__null?") (Form (GUn UNullp)) (str "(I)") [];
    entry (str "null?") (Form (GUn UNullp)) (str "(I)") [];
    entry (str "__type-of") (Form (GUn UTypeof)) (str "(I)") [];
    entry (str "type-of") (Form (GUn UTypeof)) (str "(I)") [];
    entry (str "__make-type") (Form GMakeType) (str "()") [];
    entry (str "make-type") (Form GMakeType) (str "()") [];
    entry (str "__make-instance") (Form (GTern TMakeInstance)) (str "(I I I)") [];
    entry (str "make-instance") (Form (GTern TMakeInstance)) (str "(I I I)") [];
    entry (str "__composite-value") (Form (GUn UCompositeValue)) (str "(I)") [];
    entry (str "composite-value") (Form (GUn UCompositeValue)) (str "(I)") [];
    entry (str "__composite-function") (Form (GUn UCompositeFunction)) (str "(I)") [];
    entry (str "composite-function") (Form (GUn UCompositeFunction)) (str "(I)") [];
    entry (str "__set-composite-value") (Form (GBin BSetCompositeValue false)) (str "(I I)") [];
    entry (str "set-composite-value") (Form (GBin BSetCompositeValue false)) (str "(I I)") [];
    entry (str "__set-composite-function") (Form (GBin BSetCompositeFunction false)) (str "(I I)") [];
    entry (str "set-composite-function") (Form (GBin BSetCompositeFunction false)) (str "(I I)") [];
    entry (str "__make-string") (Form (GUn UMakeString)) (str "(I)") [];
    entry (str "make-string") (Form (GUn UMakeString)) (str "(I)") [];
    entry (str "__concatenate") (Form (GBin BConcatenate false)) (str "(I I)") [];
    entry (str "concatenate") (Form (GBin BConcatenate false)) (str "(I I)") [];
    entry (str "__substring") (Form (GTern TSubstring)) (str "(I I I)") [];
    entry (str "substring") (Form (GTern TSubstring)) (str "(I I I)") [];
    entry (str "__length") (Form (GUn ULength)) (str "(I)") [];
    entry (str "length") (Form (GUn ULength)) (str "(I)") [];
    entry (str "__symbol-string") (Form (GUn USymbolString)) (str "(I)") [];
    entry (str "symbol-string") (Form (GUn USymbolString)) (str "(I)") [];
    entry (str "__symbol-id") (Form (GUn USymbolId)) (str "(I)") [];
    entry (str "symbol-id") (Form (GUn USymbolId)) (str "(I)") [];
    entry (str "__error") (Form GError) (str "(I)") []
  ].

(** duckLisp.c 1986-2005. *)
Definition init_generators : registered form * list prototype := addGenerators generators (none_registered, []).

(** duckLisp.c 587-645 duckLisp_scope_getFunctionFromName followed by the choice in 1120-1170 of
    compile_expression, with the tries: [t] is what the scopes have (596-621). *)
Inductive target := ToFuncall | ToCallback (key : Z) | ToGenerator (f : form) | ToMacro | ToNothing.
Definition function_of_name (t : Z) (c : compiler) (r : registered form) (name : bytes) : res target :=
  if t =? -1 then
    if negb (trie_find (c_callbacks c) name =? -1) then Ok (ToCallback (nameToValue (c_symbols c) name))
    else f <- find_registered r name ;; Ok (match f with Some f => ToGenerator f | None => ToFuncall end)
  else if t =? functionType_c then Ok (ToCallback (-1))
  else if t =? functionType_macro then Ok ToMacro
  else if (t =? functionType_ducklisp) || (t =? functionType_none) then Ok ToFuncall
  else if t =? functionType_generator then Err invalidValue
  else Ok ToNothing.

(** parenthesis-inferrer.c 2051-2106: the texts of a prototype are read. *)
Definition read_prototype (fuel max : nat) (p : prototype) : pres (bytes * ast * option ast) :=
  pbind (read fuel (p_type p) max 0) (fun t =>
  match p_script p with
  | [] => POk (p_name p, fst t, None)
  | s => pbind (read fuel s max 0) (fun u => POk (p_name p, fst t, Some (fst u)))
  end).

(** duckLisp.c 2416-2435: what duckLisp_linkCFunction tells the inferrer, with a type that may be empty.
    Simplification: memory suffices. *)
Fixpoint link_prototypes (fs : list (bytes * bytes)) (ps : list prototype) : list prototype :=
  match fs with
  | [] => ps
  | (name, typeString) :: r => link_prototypes r (ps ++ [Prototype name typeString []])
  end.

(** parenthesis-inferrer.c 2050-2106: the prototypes are read in turn.  Simplification: all are read before
    the first is declared. *)
Fixpoint read_prototypes (fuel max : nat) (ps : list prototype) : pres (list (bytes * ast * option ast)) :=
  match ps with
  | [] => POk []
  | p :: r => pbind (read_prototype fuel max p) (fun d => pbind (read_prototypes fuel max r) (fun ds => POk (d :: ds)))
  end.
