(** What the tokenizer properties talk about, independent of its implementation. *)
From Verif Require Import Base Text_Model Tok_Model.

(** ** Where in a source text we are *)
(** A place is ordinary code, inside a string literal (possibly just behind a backslash), inside a line
    comment or inside a block comment.  [slash]: directly behind a slash, which with another slash or a star starts a
    comment.  [star]: directly behind a star, which with a slash ends the block comment (the star of the
    opening mark counts).  Character codes: 10 line end, 34 quotation mark, 35 hash, 42 star, 47 slash,
    92 backslash. *)
Inductive place := Code (slash : bool) | InString | InEscape | InLine | InBlock (star : bool).
Definition next_place (p : place) (c : ascii) : place :=
  let is n := bool_decide (c = chr n) in
  match p with
  | Code slash =>
      if is 35 then InLine                         
      else if slash && is 47 then InLine           
      else if slash && is 42 then InBlock true     
      else if is 34 then InString
      else Code (is 47)
  | InString => if is 34 then Code false else if is 92 then InEscape else InString
  | InEscape => InString
  | InLine => if is 10 then Code false else InLine
  | InBlock star => if star && is 47 then Code true else InBlock (is 42)
  end.
Definition place_after (text : str) : place := fold_left next_place text (Code false).
(** Ordinary code, no '/' directly before. *)
Definition in_code (text : str) : Prop := place_after text = Code false.

Definition blanks (w : str) : Prop := w <> [] /\ forall c, c ∈ w -> c = chr 9 \/ c = chr 10 \/ c = chr 13 \/ c = chr 32.
(** A word: no NUL, no white space and no punctuation. *)
Definition is_word (w : str) : Prop :=
  w <> [] /\ forall c, c ∈ w -> c <> chr 0 /\ c ∉ ($"#.,;:=()[]{}!?<>+-*/%&|~' " ++ [chr 34; chr 9; chr 10; chr 13]).

(** A token without its position. *)
Definition shape (t : token) : category * ttype * str * bool := (k_cat t, k_type t, k_text t, k_opt t).
Definition res_map {A B} (f : A -> B) (r : res A) : res B := let! x := r in Ok (f x).
Definition shapes (r : res (list token)) : res (list (category * ttype * str * bool)) := res_map (map shape) r.

(** ** Lexemes *)
Inductive lexeme :=
| Word (w : str)                          (* an identifier, number, keyword, ... *)
| Punct (c : ascii)                       (* a single punctuation character *)
| Literal (cs : list (bool * ascii)).     (* a string literal: its characters, each with or without a backslash *)
Definition lex_ok (l : lexeme) : Prop :=
  match l with
  | Word w => is_word w
  | Punct c => c ∈ ($".,;:=()[]{}!?<>+-*/%&|~'")
  | Literal cs => forall e c, (e, c) ∈ cs -> (e = false -> c <> chr 34 /\ c <> chr 92 /\ c <> chr 0)
  end.
(** The source text of a lexeme. *)
Definition source (l : lexeme) : str :=
  match l with
  | Word w => w
  | Punct c => [c]
  | Literal cs => chr 34 :: concat (map (fun ec : bool * ascii => if fst ec then [chr 92; snd ec] else [snd ec]) cs) ++ [chr 34]
  end.
(** Lexemes separated by white space. *)
Fixpoint layout (items : list (lexeme * str)) : str :=
  match items with [] => [] | (l, w) :: items' => source l ++ w ++ layout items' end.

(** Lexemes with or without white space between them: a word must not touch a word or a string literal behind it,
    nor a slash a slash or star, and the text must not end in a word. *)
Definition may_touch (l l' : lexeme) : Prop :=
  match l, l' with
  | Word _, Punct _ => True
  | Word _, _ => False
  | Punct c, Punct d => ~ (c = chr 47 /\ (d = chr 47 \/ d = chr 42))
  | _, _ => True
  end.
Definition may_end (l : lexeme) : Prop := match l with Word _ => False | _ => True end.
Fixpoint tight (items : list (lexeme * str)) : Prop :=
  match items with
  | [] => True
  | (l, w) :: items' =>
      lex_ok l /\
      (blanks w \/ w = [] /\ match items' with [] => may_end l | (l', _) :: _ => may_touch l l' end) /\
      tight items'
  end.

(** A run of decimal digits. *)
Definition numeral (a : str) : Prop := a <> [] /\ Forall (fun c => is_digit c = true) a.

(** The words of the language. *)
Definition keyword_list : list str :=
  [$"assert"; $"break"; $"case"; $"cast"; $"catch"; $"continue"; $"copy"; $"default"; $"delete"; $"else"; $"exit";
   $"finally"; $"for"; $"foreach"; $"if"; $"new"; $"print"; $"return"; $"streval"; $"switch"; $"throw"; $"try";
   $"typeid"; $"var"; $"while"].
Definition reserved_list : list str :=
  [$"enum"; $"extends"; $"implements"; $"import"; $"interface"; $"namespace"; $"object"; $"operator"; $"replicates"].
(** The type a spelling has, and what is kept of the text. *)
Inductive spelled : str -> ttype -> str -> Prop :=
| sp_keyword w : w ∈ keyword_list -> spelled w KEYWORD w
| sp_reserved w : w ∈ reserved_list -> spelled w RESERVED_WORD w
| sp_visibility w : w ∈ [$"private"; $"protected"; $"public"] -> spelled w VISIBILITY w
| sp_mutability w : w ∈ [$"const"; $"modify"] -> spelled w MUTABILITY w
| sp_modifier w : w ∈ [$"recursive"; $"sealed"; $"throws"] -> spelled w MODIFIER w
| sp_layout w : w ∈ [$"abstract"; $"final"; $"override"; $"static"; $"virtual"] -> spelled w MEMORY_LAYOUT w
| sp_feature w : w ∈ [$"deprecated"; $"notimplemented"; $"stable"; $"unstable"] -> spelled w LANGUAGE_FEATURE_STATE w
| sp_access w : w ∈ [$"ref"; $"val"] -> spelled w ACCESS_MODE w
| sp_boolean w : w ∈ [$"true"; $"false"] -> spelled w CONST_BOOLEAN w
| sp_is : spelled ($"is") OPERATOR_IS ($"is")
| sp_integer w : w <> [] -> Forall (fun c => is_digit c = true) w -> spelled w CONST_INTEGER w
| sp_integer_i w : w <> [] -> Forall (fun c => is_digit c = true) w -> spelled (w ++ $"i") CONST_INTEGER w
| sp_double w : w <> [] -> Forall (fun c => is_digit c = true) w -> spelled (w ++ $"d") CONST_DOUBLE w
| sp_float w : w <> [] -> Forall (fun c => is_digit c = true) w -> spelled (w ++ $"f") CONST_FLOAT w
| sp_identifier w :
    is_word w ->
    ~ Forall (fun c => is_digit c = true) w ->
    (forall n x, Forall (fun c => is_digit c = true) n -> n <> [] -> x ∈ [chr 100; chr 102; chr 105] -> w <> n ++ [x]) ->
    w ∉ keyword_list ++ reserved_list
      ++ [$"private"; $"protected"; $"public"; $"const"; $"modify"; $"recursive"; $"sealed"; $"throws";
          $"abstract"; $"final"; $"override"; $"static"; $"virtual";
          $"deprecated"; $"notimplemented"; $"stable"; $"unstable"; $"ref"; $"val"; $"true"; $"false"; $"is"] ->
    spelled w IDENTIFIER w
| sp_punct c ty :
    (c, ty) ∈ [(chr 59, SEMICOLON); (chr 58, COLON); (chr 46, OPERATOR_SCOPE); (chr 44, COMMA);
               (chr 123, BRACKET_CURLY_OPEN); (chr 125, BRACKET_CURLY_CLOSE); (chr 91, BRACKET_OPEN);
               (chr 93, BRACKET_CLOSE); (chr 40, PARENTHESIS_OPEN); (chr 41, PARENTHESIS_CLOSE);
               (chr 61, ASSIGN); (chr 60, COMPARE_LESS); (chr 62, COMPARE_GREATER); (chr 38, BITAND);
               (chr 124, BITOR); (chr 43, MATH_ADDITION); (chr 47, MATH_DIVIDE); (chr 37, MATH_MODULO);
               (chr 42, MATH_MULTIPLY); (chr 45, MATH_SUBTRACT); (chr 63, QUESTION_MARK);
               (chr 33, OPERATOR_NOT); (chr 126, TILDE); (chr 39, IDENTIFIER)] ->
    spelled [c] ty [c].
(** Type and text a lexeme's token must have. *)
Definition lexed (l : lexeme) (ty : ttype) (txt : str) : Prop :=
  match l with
  | Word w => spelled w ty txt
  | Punct c => spelled [c] ty txt
  | Literal cs => ty = CONST_LITERAL /\ txt = map snd cs
  end.

(** ** Positions *)
(** Line and column (both from 1) of the character behind a text. *)
Definition advance (p : N * N) (c : ascii) : N * N :=
  if bool_decide (c = chr 10) then (fst p + 1, 1)%N else (fst p, snd p + 1)%N.
Definition position_after (text : str) : N * N := fold_left advance text (1, 1)%N.
(** No backslash directly before a line end. *)
Definition no_escaped_newline (s : str) : Prop := forall a b, s <> a ++ [chr 92; chr 10] ++ b.
(** The part of a lexeme before the character that terminates its token: for a word this is the whole word, a
    punctuation character and the closing quotation mark terminate themselves. *)
Definition body (l : lexeme) : str := match l with Word w => w | _ => removelast (source l) end.
(** Every token of a layout carries the position of the character that terminates it. *)
Fixpoint placed (before : str) (items : list (lexeme * str)) (ts : list token) : Prop :=
  match items, ts with
  | [], [] => True
  | (l, w) :: items', t :: ts' =>
      (k_line t, k_col t) = position_after (before ++ body l) /\ placed (before ++ source l ++ w) items' ts'
  | _, _ => False
  end.
Definition newlines (s : list ascii) : N := N.of_nat (length (filter (fun c => c = chr 10) s)).

(** ** Joined operators (C17) *)
(** Adjacent tokens the language joins into one. *)
Definition joined_assign : list (ttype * ttype) :=
  [(ASSIGN, ASSIGN); (COMPARE_EQUAL, ASSIGN); (COMPARE_UNEQUAL, ASSIGN); (OPERATOR_NOT, ASSIGN);
   (BITAND, ASSIGN); (BITOR, ASSIGN); (COMPARE_GREATER, ASSIGN); (COMPARE_LESS, ASSIGN); (MATH_ADDITION, ASSIGN);
   (MATH_SUBTRACT, ASSIGN); (MATH_MULTIPLY, ASSIGN); (MATH_DIVIDE, ASSIGN); (MATH_MODULO, ASSIGN)].
Definition joined_operator : list (ttype * ttype) :=
  [(BITAND, BITAND); (BITOR, BITOR); (OPERATOR_NOT, BITAND); (OPERATOR_NOT, BITOR); (OPERATOR_SCOPE, OPERATOR_SCOPE);
   (MATH_SUBTRACT, MATH_SUBTRACT); (MATH_ADDITION, MATH_ADDITION); (COMPARE_LESS, COMPARE_LESS);
   (COMPARE_GREATER, COMPARE_GREATER); (BRACKET_OPEN, BRACKET_CLOSE)].
(** Token types that take part in joining, as a part or as a result. *)
Definition joining : list ttype :=
  [ASSIGN; COMPARE_EQUAL; COMPARE_UNEQUAL; COMPARE_EQUAL_CONTENT; COMPARE_UNEQUAL_CONTENT; OPERATOR_NOT; BITAND; BITOR;
   COMPARE_GREATER; COMPARE_LESS; COMPARE_GREATER_EQUAL; COMPARE_LESS_EQUAL; MATH_ADDITION; MATH_SUBTRACT; MATH_MULTIPLY;
   MATH_DIVIDE; MATH_MODULO; ASSIGN_BITAND; ASSIGN_BITOR; ASSIGN_ADDITION; ASSIGN_SUBTRACT; ASSIGN_MULTIPLY; ASSIGN_DIVIDE;
   ASSIGN_MODULO; AND; OR; NAND; NOR; OPERATOR_SCOPE; OPERATOR_RANGE; OPERATOR_DECREMENT; OPERATOR_INCREMENT;
   OPERATOR_SHIFT_LEFT; OPERATOR_SHIFT_RIGHT; BRACKET_OPEN; BRACKET_CLOSE; ARRAY_SUBSCRIPT;
   BITCOMPLEMENT; ASSIGN_BITCOMPLEMENT; GREATER; LESS].
(** What the programmer wrote for a token; the model keeps the text [*=] for [%=]. *)
Definition written (t : token) : str := match k_type t with ASSIGN_MODULO => $"%=" | _ => k_text t end.
