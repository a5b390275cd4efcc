(** What the texts that duck-lisp reads look like, independently of the reader. *)
From Coq Require Import ZArith List Bool.
From Verif Require Import M_Base M_Parser S_IntText.
Import ListNotations.
Open Scope Z_scope.

(** Bytes of words: not white space, control characters, double quotes, parentheses or
    semicolons. *)
Definition word_byte (c : Z) : Prop := 32 < c /\ c <> 34 /\ c <> 40 /\ c <> 41 /\ c <> 59.

Definition word_ends (after : list Z) : Prop :=
  match after with [] => True | c :: _ => ~ word_byte c end.

(** White space and comments.  A comment runs from a semicolon up to a line ending. *)
Inductive gap : list Z -> Prop :=
| gap_nil : gap []
| gap_space c g : c <= 32 -> gap g -> gap (c :: g)
| gap_comment text e g :
    Forall (fun c => c <> 10 /\ c <> 13) text -> e = 10 \/ e = 13 -> gap g ->
    gap (59 :: text ++ e :: g).

(** The inside of a string literal and the bytes it stands for. *)
Inductive quoted : list Z -> list Z -> Prop :=
| quoted_nil : quoted [] []
| quoted_plain c t s : c <> 34 -> c <> 92 -> quoted t s -> quoted (c :: t) (c :: s)
| quoted_newline t s : quoted t s -> quoted (92 :: 110 :: t) (10 :: s)
| quoted_escape c t s : c <> 110 -> quoted t s -> quoted (92 :: c :: t) (c :: s).

(** Words that begin like a number: after an optional minus sign a point and a digit, or digits
    that are the rest of the word or are followed by a point or an exponent, or 0x and nothing but
    hexadecimal digits. *)
Definition digit (c : Z) : bool := (48 <=? c) && (c <=? 57).
Definition hexit (c : Z) : bool :=
  digit c || ((97 <=? c) && (c <=? 102)) || ((65 <=? c) && (c <=? 70)).
Definition unsigned (w : list Z) : list Z :=
  match w with c :: r => if c =? 45 then r else w | [] => [] end.
Fixpoint after_digits (l : list Z) : list Z :=
  match l with c :: r => if digit c then after_digits r else l | [] => [] end.
Definition numeric (w : list Z) : bool :=
  match unsigned w with
  | [] => false
  | d :: r =>
      if d =? 46 then match r with c :: _ => digit c | [] => false end
      else if digit d then
        match after_digits r with
        | [] => true
        | c :: _ => (c =? 46) || (c =? 101) || (c =? 69)
        end
        || (d =? 48) && match r with
                        | x :: h => ((x =? 120) || (x =? 88)) && forallb hexit h
                        | [] => false
                        end
      else false
  end.

Definition starts_with (p w : list Z) : Prop := exists r, w = p ++ r.
Definition word_true : list Z := [116; 114; 117; 101].
Definition word_false : list Z := [102; 97; 108; 115; 101].

(** Words that are identifiers as they stand. *)
Record name (w : list Z) : Prop := {
  name_word : Forall word_byte w;
  name_nonempty : w <> [];
  name_hash : hd 0 w <> 35;
  name_true : ~ starts_with word_true w;
  name_false : ~ starts_with word_false w;
  name_numeric : numeric w = false }.

(** Words that are integers: decimal digits, or 0x or 0X and hexadecimal digits, with an optional
    minus sign. *)
Inductive magnitude : list Z -> Z -> Prop :=
| magnitude_dec s v : s <> [] -> positional dec_digit 10 s v -> magnitude s v
| magnitude_hex x s v :
    x = 120 \/ x = 88 -> s <> [] -> positional hex_digit 16 s v -> magnitude (48 :: x :: s) v.
Inductive integer : list Z -> Z -> Prop :=
| integer_pos t v : magnitude t v -> integer t v
| integer_neg t v : magnitude t v -> integer (45 :: t) (- v).

(** Words that may be floats.  Which of them are, and what they stand for, is the subject of C57; the
    grammar below takes the value of a float in a text to be the one it has alone. *)
Definition float_word (t : list Z) : Prop := exists c r, t = c :: r /\ (c = 45 \/ c = 46 \/ 48 <= c <= 57).

(** [spells t a after]: the text [t], when followed by [after] in the source, is written for the
    tree [a].  [row t l after]: [t] is a row of elements, each followed by a gap; the first one
    starts at once.  The value of a float literal is the one the reader computes: C57 says
    how far it is from the number that is written, and which literals are float words. *)
Inductive spells : list Z -> ast -> list Z -> Prop :=
| sp_int t n after :
    integer t n -> - 2 ^ 63 < n < 2 ^ 63 -> after <> [] -> word_ends after ->
    spells t (AstInt n) after
| sp_string t s after :
    quoted t s -> after <> [] -> spells (34 :: t ++ [34]) (AstString s) after
| sp_name w after : name w -> word_ends after -> spells w (AstIdentifier w) after
| sp_hash w after :
    Forall word_byte w -> word_ends after -> hd 0 (w ++ after) <> 40 ->
    spells (35 :: w) (AstIdentifier w) after
| sp_true after : after <> [] -> word_ends after -> spells word_true (AstBool true) after
| sp_false after : after <> [] -> word_ends after -> spells word_false (AstBool false) after
| sp_float t f after :
    float_word t -> parse_float (t ++ after) 0 = POk (AstFloat (Some f), length t) -> after <> [] -> word_ends after ->
    spells t (AstFloat (Some f)) after
| sp_empty after : spells [40; 41] (AstExpression []) after
| sp_list g t l after :
    gap g -> row t l (41 :: after) -> l <> [] ->
    spells (40 :: g ++ t ++ [41]) (AstExpression l) after
| sp_hash_empty after : after <> [] -> spells [35; 40; 41] (AstExpression []) after
| sp_hash_list g t l after :
    gap g -> row t l (41 :: after) -> l <> [] ->
    spells (35 :: 40 :: g ++ t ++ [41]) (AstExpression l) after
with row : list Z -> list ast -> list Z -> Prop :=
| row_nil after : row [] [] after
| row_cons t a g t' l after :
    spells t a (g ++ t' ++ after) -> gap g -> row t' l after ->
    row (t ++ g ++ t') (a :: l) after.

(** How deeply a tree is nested. *)
Fixpoint nesting (a : ast) : nat :=
  match a with
  | AstExpression l | AstLiteral l => S (fold_right (fun x m => Nat.max (nesting x) m) O l)
  | _ => 1
  end.

(** The last byte of a text. *)
Definition last_byte (s : list Z) : option Z :=
  match rev s with c :: _ => Some c | [] => None end.

(** Texts that do not end in white space, a digit or the letter x. *)
Definition ends_safely (s : list Z) : Prop :=
  forall c, last_byte s = Some c -> 32 < c /\ ~ 48 <= c <= 57 /\ c <> 120 /\ c <> 88.

(** All the identifiers in a tree. *)
Fixpoint names_of (a : ast) : list (list Z) :=
  match a with
  | AstIdentifier s | AstCallback s => [s]
  | AstExpression l | AstLiteral l => concat (map names_of l)
  | _ => []
  end.

(** A printer: decimal integers, strings with backslashes before quotes and backslashes and \n for
    line feeds, identifiers as they are, expressions in parentheses with one space between
    elements. *)
Fixpoint decimal (fuel : nat) (n : Z) : list Z :=
  match fuel with
  | O => []
  | S f => (if n <? 10 then [] else decimal f (n / 10)) ++ [48 + n mod 10]
  end.
Definition print_integer (n : Z) : list Z :=
  if n <? 0 then 45 :: decimal 20 (- n) else decimal 20 n.
Definition escape (c : Z) : list Z :=
  if (c =? 34) || (c =? 92) then [92; c] else if c =? 10 then [92; 110] else [c].
Fixpoint print (a : ast) : list Z :=
  match a with
  | AstBool b => if b then word_true else word_false
  | AstInt n => print_integer n
  | AstString s => 34 :: concat (map escape s) ++ [34]
  | AstIdentifier w => w
  | AstExpression l =>
      40 :: match l with
            | [] => []
            | x :: l => print x ++ concat (map (fun y => 32 :: print y) l)
            end ++ [41]
  | _ => []
  end.

(** The trees that have a printed text. *)
Fixpoint printable (a : ast) : Prop :=
  match a with
  | AstBool _ | AstString _ => True
  | AstInt n => - 2 ^ 63 < n < 2 ^ 63
  | AstIdentifier w => name w
  | AstExpression l => fold_right (fun x P => printable x /\ P) True l
  | _ => False
  end.
Definition is_expression (a : ast) : Prop := exists l, a = AstExpression l.
