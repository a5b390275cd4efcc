(** Model of the reader: parser.c, with dl_string_toDouble of DuckLib/string.c.

    The source text is a list of bytes (0..255); an index is a natural number, which is what the C
    code's dl_ptrdiff_t indices are here (they start at the caller's index and only grow).

    Simplifications: allocation always succeeds; the messages appended to duckLisp->errors are not
    modelled, only the returned error codes; no parser actions are registered (duckLisp_init
    registers none, runAction parser.c:1357-1382 then does nothing); USE_PARENTHESIS_INFERENCE is
    off. *)
From Coq Require Import ZArith List Bool Floats.SpecFloat.
From Verif Require Import M_Base M_String M_VM.
Import ListNotations.
Open Scope Z_scope.

(** Outcome of a reader: success, an error code, a read outside of the source text, signed
    overflow in a number conversion, or the model's step bound
    (dl_error_t of parser.c 1384-1482 and what the code leaves undefined). *)
Inductive pres (A : Type) := POk (a : A) | PErr (e : error) | POutside | POverflow | PNoFuel.
Arguments POk {A} a.
Arguments PErr {A} e.
Arguments POutside {A}.
Arguments POverflow {A}.
Arguments PNoFuel {A}.

(** [if (e) goto cleanup;] (e.g. parser.c 503-576). *)
Definition pbind {A B} (m : pres A) (f : A -> pres B) : pres B :=
  match m with
  | POk a => f a
  | PErr e => PErr e
  | POutside => POutside
  | POverflow => POverflow
  | PNoFuel => PNoFuel
  end.
Declare Scope pres_scope.
Notation "x <-- m ;; f" := (pbind m (fun x => f))
  (at level 61, m at next level, right associativity) : pres_scope.
Notation "' p <-- m ;; f" := (pbind m (fun p => f))
  (at level 61, p pattern, m at next level, right associativity) : pres_scope.
Open Scope pres_scope.

(** duckLisp.h duckLisp_ast_compoundExpression_t.  The value of a float is [None] when
    parse_float leaves it uninitialised (duckLisp.h 41-91). *)
Inductive ast :=
| AstBool (b : bool)
| AstFloat (f : option spec_float)
| AstInt (n : Z)
| AstString (s : list Z)
| AstIdentifier (s : list Z)
| AstCallback (s : list Z)
| AstExpression (l : list ast)
| AstLiteral (l : list ast).

(** [source[i]] (e.g. parser.c 515). *)
Definition at_ (source : list Z) (i : nat) : pres Z :=
  match nth_error source i with Some c => POk c | None => POutside end.

(** [while ((i < source_length) && p(source[i])) i++;] (e.g. parser.c 540). *)
Fixpoint run_length (p : Z -> bool) (l : list Z) : nat :=
  match l with
  | c :: l' => if p c then S (run_length p l') else O
  | [] => O
  end.
Definition scan (p : Z -> bool) (source : list Z) (i : nat) : nat :=
  (i + run_length p (skipn i source))%nat.

(** [while (p(source[i])) i++;], without a bound (e.g. parser.c 145-190). *)
Definition scan_unbounded (p : Z -> bool) (source : list Z) (i : nat) : pres nat :=
  let j := scan p source i in
  if (j <? length source)%nat then POk j else POutside.

(** DuckLib/string.h dl_string_toLower, compared with 'e' (DuckLib/string.h 31). *)
Definition is_e (c : Z) : bool := (c =? 101) || (c =? 69).

(** parser.c:130-142 isIdentifierSymbol.  (The argument is a [char]; dl_string_isSpace converts it
    back to an unsigned byte.) *)
Definition isIdentifierSymbol (c : Z) : bool :=
  if isSpace c then false
  else negb ((c =? 34) || (c =? 40) || (c =? 41) || (c =? 59)).

(** parser.c:145-169 parse_comment; [None] is dl_error_invalidValue. *)
Definition parse_comment (source : list Z) (i : nat) : pres (option nat) :=
  c <-- at_ source i ;;
  if negb (c =? 59) then POk None
  else POk (Some (scan (fun c => negb (c =? 13) && negb (c =? 10)) source i)).

(** parser.c:171-191 parse_irrelevant.  The callers ignore its error code; when it is an error
    the index is left alone.  Fuel: one unit for each comment. *)
Fixpoint irrelevant_loop (fuel : nat) (source : list Z) (i : nat) : pres (option nat) :=
  match fuel with
  | O => PNoFuel
  | S fuel' =>
      if (length source <=? i)%nat then POk None
      else
        j <-- scan_unbounded isSpace source i ;;
        c <-- parse_comment source j ;;
        match c with
        | None => POk (Some j)
        | Some k => irrelevant_loop fuel' source k
        end
  end.
Definition parse_irrelevant (source : list Z) (i : nat) : pres nat :=
  r <-- irrelevant_loop (S (length source)) source i ;;
  POk (match r with Some j => j | None => i end).

(** parser.c:503-576 parse_identifier.  The text of a token is [source[i..j)]. *)
Definition slice (source : list Z) (i j : nat) : list Z := firstn (j - i) (skipn i source).

(** parser.c 503-576 parse_identifier. *)
Definition parse_identifier (source : list Z) (i : nat) : pres (ast * nat) :=
  if (length source <=? i)%nat then PErr invalidValue
  else
    c <-- at_ source i ;;
    if negb (isIdentifierSymbol c) then PErr invalidValue
    else
      let j := scan isIdentifierSymbol source (S i) in
      POk (AstIdentifier (slice source i j), j).

(** parser.c:579-654 parse_callback. *)
Definition parse_callback (source : list Z) (i : nat) : pres (ast * nat) :=
  if (length source <=? i)%nat then PErr invalidValue
  else
    c <-- at_ source i ;;
    if negb (c =? 35) then PErr invalidValue
    else
      let j := scan (fun c => isAlpha c || isDigit c || isIdentifierSymbol c) source (S i) in
      POk (AstCallback (slice source (S i) j), j).

(** DuckLib/string.c:441-449 dl_string_compare_partial at [source[i]]. *)
Fixpoint compare_partial (source : list Z) (i : nat) (text : list Z) : pres bool :=
  match text with
  | [] => POk true
  | t :: text' =>
      c <-- at_ source i ;;
      if negb (c =? t) then POk false else compare_partial source (S i) text'
  end.

(** parser.c:666-762 parse_bool. *)
Definition parse_bool (source : list Z) (i : nat) : pres (ast * nat) :=
  if (length source <=? i + 4)%nat then PErr invalidValue
  else
    t <-- compare_partial source i text_true ;;
    j <-- (if t then POk (i + 4)%nat
           else if (length source <=? i + 5)%nat then PErr invalidValue
           else
             f <-- compare_partial source i text_false ;;
             if f then POk (i + 5)%nat else PErr invalidValue) ;;
    match toBool (slice source i j) with
    | Some b => POk (AstBool b, j)
    | None => PErr invalidValue
    end.

(** parser.c:838-858: the hexadecimal prefix; returns the index after it and [hexadecimal]. *)
Definition hex_prefix (source : list Z) (i : nat) : pres (nat * bool) :=
  if (i <? length source)%nat then
    p <-- at_ source (i - 1) ;;
    x <-- at_ source i ;;
    if (p =? 48) && ((x =? 120) || (x =? 88)) then
      d <-- at_ source (S i) ;;
      if negb (isHexadecimalDigit d) then PErr invalidValue else POk (S (S i), true)
    else POk (i, false)
  else POk (i, false).

(** parser.c:860-874: the rest of the digits. *)
Definition int_digits (hexadecimal : bool) (source : list Z) (i : nat) : pres nat :=
  let digit := if hexadecimal then isHexadecimalDigit else isDigit in
  let j := scan (fun c => isIdentifierSymbol c && digit c) source i in
  match nth_error source j with
  | Some c => if isIdentifierSymbol c then PErr invalidValue else POk j
  | None => POk j
  end.

(** parser.c:775-906 parse_int. *)
Definition parse_int (source : list Z) (i : nat) : pres (ast * nat) :=
  if (length source <=? i)%nat then PErr invalidValue
  else
    c <-- at_ source i ;;
    let i1 := if c =? 45 then S i else i in
    if (length source <=? i1)%nat then PErr invalidValue
    else
      d <-- at_ source i1 ;;
      if negb (isDigit d) then PErr invalidValue
      else
        ' (i2, hexadecimal) <-- hex_prefix source (S i1) ;;
        j <-- int_digits hexadecimal source i2 ;;
        match toPtrdiff (slice source i j) with
        | Value z => POk (AstInt z, j)
        | Invalid => PErr invalidValue
        | Overflow => POverflow
        end.

(** Arithmetic on dl_ptrdiff_t (DuckLib/core.h 26-30). *)
Definition fits_ptrdiff (z : Z) : pres Z :=
  if (PTRDIFF_MIN <=? z) && (z <=? PTRDIFF_MAX) then POk z else POverflow.

(** Arithmetic of double (DuckLib/string.c 247-418). *)
Definition fmul := SFmul 53 1024.
Definition fdiv := SFdiv 53 1024.
Definition fadd := SFadd 53 1024.

(** DuckLib/string.c:290-301 and 340-350: the loop over the digits of the fraction.  [string] is
    the rest of the memory from the current character on and [n] the number of characters left in
    the token.  Returns the characters and the count left, and the result. *)
Fixpoint fraction_loop (n : nat) (string : list Z) (power : Z) (result : spec_float)
  : pres (list Z * nat * spec_float) :=
  match n with
  | O => POk (string, O, result)
  | S n' =>
      match string with
      | [] => POutside
      | c :: string' =>
          if is_e c then POk (string, n, result)
          else
            p <-- fits_ptrdiff (10 * power) ;;
            if negb (isDigit c) then PErr invalidValue
            else fraction_loop n' string' p (fadd result (fdiv (to_float (c - 48)) (to_float p)))
      end
  end.

(** DuckLib/string.c:314-325: the loop over the digits before the point. *)
Fixpoint whole_loop (n : nat) (string : list Z) (result : spec_float)
  : pres (list Z * nat * spec_float) :=
  match n with
  | O => POk (string, O, result)
  | S n' =>
      match string with
      | [] => POutside
      | c :: string' =>
          if is_e c || (c =? 46) then POk (string, n, result)
          else if negb (isDigit c) then PErr invalidValue
          else whole_loop n' string' (fadd (fmul result (to_float 10)) (to_float (c - 48)))
      end
  end.

(** DuckLib/string.c:376-385: the loop over the digits of the exponent.
    [power * 10 + string[index] - '0'] is evaluated from left to right. *)
Fixpoint exponent_loop (n : nat) (string : list Z) (power : Z) : pres Z :=
  match n with
  | O => POk power
  | S n' =>
      match string with
      | [] => POutside
      | c :: string' =>
          if negb (isDigit c) then PErr invalidValue
          else
            p <-- fits_ptrdiff (power * 10) ;;
            p <-- fits_ptrdiff (p + c) ;;
            exponent_loop n' string' (p - 48)
      end
  end.

(** DuckLib/string.c:352-402: the exponent. *)
Definition exponent (string : list Z) (n : nat) (result : spec_float) : pres spec_float :=
  match n with
  | O => PErr invalidValue
  | S n' =>
      c <-- at_ string 0 ;;
      let power_negative := c =? 45 in
      let '(string, n) := if power_negative then (tl string, n') else (string, n) in
      match n with
      | O => PErr invalidValue
      | S n' =>
          d <-- at_ string 0 ;;
          if negb (isDigit d) then PErr invalidValue
          else
            power <-- exponent_loop n' (tl string) (d - 48) ;;
            if power_negative then
              if power =? 0 then PErr invalidValue
              else POk (Z.iter power (fun r => fdiv r (to_float 10)) result)
            else POk (Z.iter power (fun r => fmul r (to_float 10)) result)
      end
  end.

(** DuckLib/string.c:352-413: from the test for an exponent to the end. *)
Definition to_double_end (negative : bool) (string : list Z) (n : nat) (result : spec_float)
  : pres spec_float :=
  c <-- at_ string 0 ;;
  r <-- (if is_e c then exponent (tl string) (n - 1) result
         else if (n =? 0)%nat then POk result else PErr cantHappen) ;;
  POk (if negative then SFopp r else r).

(** DuckLib/string.c:247-418 dl_string_toDouble.  [string] is the memory from the start of the
    token to the end of the source text, [n] the length of the token. *)
Definition toDouble (string : list Z) (n : nat) : pres spec_float :=
  c <-- at_ string 0 ;;
  let negative := c =? 45 in
  let '(string, n) := if negative then (tl string, (n - 1)%nat) else (string, n) in
  if negative && (n =? 0)%nat then PErr invalidValue
  else
    c <-- at_ string 0 ;;
    if c =? 46 then
      let n := (n - 1)%nat in
      if (n =? 0)%nat then PErr invalidValue
      else
        d <-- at_ (tl string) 0 ;;
        if negb (isDigit d) then PErr invalidValue
        else
          ' (s, n, r) <-- fraction_loop (n - 1) (tl (tl string)) 10
                            (fadd (S754_zero false) (fdiv (to_float (d - 48)) (to_float 10))) ;;
          to_double_end negative s n r
    else if negb (isDigit c) then PErr invalidValue
    else
      ' (s, n, r) <-- whole_loop (n - 1) (tl string) (to_float (c - 48)) ;;
      p <-- at_ s 0 ;;
      if p =? 46 then
        if (n - 1 =? 0)%nat then POk r
        else
          ' (s, n, r) <-- fraction_loop (n - 1) (tl s) 1 r ;;
          to_double_end negative s n r
      else
        ' (s, n, r) <-- fraction_loop n s 0 r ;;
        to_double_end negative s n r.

(** parser.c:1066-1117: the exponent of a float.  Returns the index after it and whether there
    was one. *)
Definition float_exponent (source : list Z) (i : nat) : pres (nat * bool) :=
  c <-- at_ source i ;;
  if is_e c then
    let i := S i in
    if (length source <=? i)%nat then PErr invalidValue
    else
      c <-- at_ source i ;;
      let i := if c =? 45 then S i else i in
      if (length source <=? i)%nat then PErr invalidValue
      else
        d <-- at_ source i ;;
        if negb (isDigit d) then PErr invalidValue
        else POk (scan (fun c => isIdentifierSymbol c && isDigit c) source (S i), true)
  else POk (i, false).

(** parser.c:974-1064: the mantissa.  Returns the index after it and whether it has a point;
    [None] is the [goto cleanup] for a point at the end of the text. *)
Definition float_mantissa (source : list Z) (i : nat) : pres (option (nat * bool)) :=
  c <-- at_ source i ;;
  if c =? 46 then
    let i := S i in
    if (length source <=? i)%nat then PErr invalidValue
    else
      d <-- at_ source i ;;
      if negb (isDigit d) then PErr invalidValue
      else
        POk (Some (scan (fun c => isIdentifierSymbol c && negb (is_e c) && isDigit c) source (S i), true))
  else if negb (isDigit c) then PErr invalidValue
  else
    let j := scan (fun c => isIdentifierSymbol c && negb (is_e c) && negb (c =? 46) && isDigit c)
                  source (S i) in
    p <-- at_ source j ;;
    let point := p =? 46 in
    let j := if point then S j else j in
    if point && (length source <=? j)%nat then POk None
    else
      POk (Some (scan (fun c => isIdentifierSymbol c && negb (is_e c) && isDigit c) source j, point)).

(** parser.c:919-1152 parse_float. *)
Definition parse_float (source : list Z) (i : nat) : pres (ast * nat) :=
  if (length source <=? i)%nat then PErr invalidValue
  else
    c <-- at_ source i ;;
    let i1 := if c =? 45 then S i else i in
    if (length source <=? i1)%nat then PErr invalidValue
    else
      m <-- float_mantissa source i1 ;;
      match m with
      | None => POk (AstFloat None, i)
      | Some (i2, point) =>
          ' (j, has_exponent) <-- float_exponent source i2 ;;
          if negb (point || has_exponent) then PErr invalidValue
          else
            match toDouble (skipn i source) (j - i) with
            | POk f => POk (AstFloat (Some f), j)
            | PErr _ => PErr invalidValue
            | POutside => POutside
            | POverflow => POverflow
            | PNoFuel => PNoFuel
            end
      end.

(** parser.c:1205-1240: find the end of a string; [l] is the rest of the source from [i] on.
    [None] is a backslash at the end of the text. *)
Fixpoint string_end (l : list Z) (i : nat) : option nat :=
  match l with
  | [] => Some i
  | c :: l' =>
      if c =? 92 then
        match l' with
        | [] => None
        | _ :: l'' => string_end l'' (S (S i))
        end
      else if c =? 34 then Some (S i)
      else string_end l' (S i)
  end.

(** parser.c:1284-1301: copy the characters, replacing escape sequences. *)
Fixpoint unescape (escape : bool) (l : list Z) : list Z :=
  match l with
  | [] => []
  | c :: l' =>
      if escape then (if c =? 110 then 10 else c) :: unescape false l'
      else if c =? 92 then unescape true l'
      else c :: unescape false l'
  end.

(** parser.c:1173-1311 parse_string. *)
Definition parse_string (source : list Z) (i : nat) : pres (ast * nat) :=
  if (length source <=? i)%nat then PErr invalidValue
  else
    c <-- at_ source i ;;
    if negb (c =? 34) then PErr invalidValue
    else
      match string_end (skipn (S i) source) (S i) with
      | None => PErr invalidValue
      | Some j =>
          if (length source <=? j)%nat then PErr invalidValue
          else POk (AstString (unescape false (slice source (S i) (j - 1))), j)
      end.

(** A reader that also has access to duckLisp->parser_recursion_depth: its outcome and the value
    of the counter afterwards (duckLisp.h 156-207). *)
Definition reader := nat -> nat -> pres (ast * nat) * nat.

(** parser.c:258-304 and 420-466: read compound expressions up to the closing parenthesis.
    Fuel: one unit for each element. *)
Fixpoint parse_elements (compound : reader) (fuel : nat) (source : list Z)
    (i : nat) (depth : nat) (sofar : list ast) : pres (list ast * nat) * nat :=
  match fuel with
  | O => (PNoFuel, depth)
  | S fuel' =>
      if (length source <=? i)%nat then (PErr invalidValue, depth)
      else
        match at_ source i with
        | POk c =>
            if c =? 41 then (POk (sofar, S i), depth)
            else
              match compound i depth with
              | (POk (a, j), depth) =>
                  match parse_irrelevant source j with
                  | POk k => parse_elements compound fuel' source k depth (sofar ++ [a])
                  | PErr e => (PErr e, depth)
                  | POutside => (POutside, depth)
                  | POverflow => (POverflow, depth)
                  | PNoFuel => (PNoFuel, depth)
                  end
              | (PErr e, depth) => (PErr e, depth)
              | (POutside, depth) => (POutside, depth)
              | (POverflow, depth) => (POverflow, depth)
              | (PNoFuel, depth) => (PNoFuel, depth)
              end
        | _ => (POutside, depth)
        end
  end.

(** The list read so far becomes a tree (parser.c 213-480). *)
Definition with_ast (f : list ast -> ast) (r : pres (list ast * nat) * nat) : pres (ast * nat) * nat :=
  (match fst r with
   | POk (l, j) => POk (f l, j)
   | PErr e => PErr e
   | POutside => POutside
   | POverflow => POverflow
   | PNoFuel => PNoFuel
   end, snd r).

(** parser.c:213-314 parse_literalExpression. *)
Definition parse_literalExpression (compound : reader) (fuel : nat) (source : list Z)
    (i depth : nat) : pres (ast * nat) * nat :=
  if (length source <=? i + 3)%nat then (PErr invalidValue, depth)
  else
    match at_ source i, at_ source (S i) with
    | POk a, POk b =>
        if negb (a =? 35) then (PErr invalidValue, depth)
        else if negb (b =? 40) then (PErr invalidValue, depth)
        else if (length source <=? S (S i))%nat then (PErr invalidValue, depth)
        else with_ast AstLiteral (parse_elements compound fuel source (S (S i)) depth [])
    | _, _ => (POutside, depth)
    end.

(** parser.c:356-476 parse_expression. *)
Definition parse_expression (compound : reader) (fuel : nat) (source : list Z)
    (i depth : nat) : pres (ast * nat) * nat :=
  if (length source <=? i)%nat then (PErr invalidValue, depth)
  else
    match at_ source i with
    | POk a =>
        if negb (a =? 40) then (PErr invalidValue, depth)
        else if (length source <=? S i)%nat then (PErr invalidValue, depth)
        else with_ast AstExpression (parse_elements compound fuel source (S i) depth [])
    | _ => (POutside, depth)
    end.

(** parser.c:1443-1471: try the readers in turn; only dl_error_invalidValue leads to the next. *)
Fixpoint try_readers (readers : list reader) (i depth : nat) : pres (ast * nat) * nat :=
  match readers with
  | [] => (PErr invalidValue, depth)
  | r :: readers' =>
      match r i depth with
      | (PErr invalidValue, depth) => try_readers readers' i depth
      | x => x
      end
  end.

(** A reader that does not touch the counter (parser.c 1384-1482). *)
Definition plain (f : list Z -> nat -> pres (ast * nat)) (source : list Z) : reader :=
  fun i depth => (f source i, depth).

(** parser.c:1384-1482 duckLisp_parse_compoundExpression.  Fuel: one unit for each level. *)
Fixpoint parse_compoundExpression (fuel : nat) (source : list Z) (max : nat) (i depth : nat)
  : pres (ast * nat) * nat :=
  match fuel with
  | O => (PNoFuel, depth)
  | S fuel' =>
      let compound := parse_compoundExpression fuel' source max in
      let depth := S depth in
      let r :=
        if (max <=? depth)%nat then (PErr bufferOverflow, depth)
        else
          match parse_irrelevant source i with
          | POk i =>
              try_readers [plain parse_bool source; plain parse_float source;
                           plain parse_int source; plain parse_string source;
                           parse_literalExpression compound fuel' source;
                           plain parse_callback source; plain parse_identifier source;
                           parse_expression compound fuel' source] i depth
          | PErr e => (PErr e, depth)
          | POutside => (POutside, depth)
          | POverflow => (POverflow, depth)
          | PNoFuel => (PNoFuel, depth)
          end in
      (fst r, (snd r - 1)%nat)
  end.

(** parser.c:1485-1498 parser_postprocess_compoundExpression. *)
Fixpoint postprocess (a : ast) : ast :=
  match a with
  | AstCallback s => AstIdentifier s
  | AstLiteral l => AstExpression (map postprocess l)
  | AstExpression l => AstExpression (map postprocess l)
  | a => a
  end.

(** parser.c:1501-1548 duckLisp_read; also returns the index behind the expression, which the C
    function keeps to itself. *)
Definition read (fuel : nat) (source : list Z) (max : nat) (i : nat) : pres (ast * nat) :=
  match fst (parse_compoundExpression fuel source max i 0) with
  | POk (a, j) => POk (postprocess a, j)
  | r => r
  end.

(** duckLisp.c:2137-2180 duckLisp_loadString up to the call of duckLisp_read: the pointer is moved
    past a leading space but the length stays what it was, so that the reader is told that the byte
    behind the text belongs to it.  [behind] is the byte that memory holds there.  Simplification:
    the test of [*source] for an empty text, which also reads that byte, is a test of [behind]. *)
Definition load_source (source : list Z) (behind : Z) : list Z :=
  match source with
  | c :: source' => if isSpace c then source' ++ [behind] else source
  | [] => source
  end.
