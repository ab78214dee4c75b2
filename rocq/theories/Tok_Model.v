(** Model of the tokenizer.
    Code: /repo/Projects/Core/Core/Designtime/Parser/Tokenizer.cpp,
          /repo/Projects/Core/Core/Common/Token.h, Common/Types.cpp, Consts.h. *)
From Verif Require Import Base Text_Model.

(** Token::Type, Token.h:41-120. *)
Inductive ttype :=
| ACCESS_MODE
| AND
| ARRAY_SUBSCRIPT
| ASSIGN
| ASSIGN_ADDITION
| ASSIGN_BITAND
| ASSIGN_BITCOMPLEMENT
| ASSIGN_BITOR
| ASSIGN_DIVIDE
| ASSIGN_MODULO
| ASSIGN_MULTIPLY
| ASSIGN_SUBTRACT
| BRACKET_CLOSE
| BRACKET_CURLY_CLOSE
| BRACKET_CURLY_OPEN
| BRACKET_OPEN
| BITAND
| BITCOMPLEMENT
| BITOR
| CASE
| COLON
| COMMA
| COMPARE_EQUAL
| COMPARE_EQUAL_CONTENT
| COMPARE_LESS
| COMPARE_LESS_EQUAL
| COMPARE_GREATER
| COMPARE_GREATER_EQUAL
| COMPARE_UNEQUAL
| COMPARE_UNEQUAL_CONTENT
| CONST_BOOLEAN
| CONST_DOUBLE
| CONST_FLOAT
| CONST_INTEGER
| CONST_LITERAL
| CONST_NULL
| ENDOFFILE
| GREATER
| IDENTIFIER
| KEYWORD
| LANGUAGE_FEATURE_STATE
| LESS
| MATH_ADDITION
| MATH_DIVIDE
| MATH_MODULO
| MATH_MULTIPLY
| MATH_SUBTRACT
| MEMORY_LAYOUT
| MODIFIER
| MUTABILITY
| NAND
| NIL
| NOR
| OPERATOR_DECREMENT
| OPERATOR_INCREMENT
| OPERATOR_IS
| OPERATOR_NOT
| OPERATOR_RANGE
| OPERATOR_SCOPE
| OPERATOR_SHIFT_LEFT
| OPERATOR_SHIFT_RIGHT
| OPERATOR_VALIDATE
| OR
| PARENTHESIS_CLOSE
| PARENTHESIS_OPEN
| QUESTION_MARK
| QUOTATION_DOUBLE
| RESERVED_WORD
| SEMICOLON
| TILDE
| TYPECAST
| UNKNOWN
| VISIBILITY
| WHITESPACE.
Definition tnum (t : ttype) : N := match t with
| ACCESS_MODE => 0
| AND => 1
| ARRAY_SUBSCRIPT => 2
| ASSIGN => 3
| ASSIGN_ADDITION => 4
| ASSIGN_BITAND => 5
| ASSIGN_BITCOMPLEMENT => 6
| ASSIGN_BITOR => 7
| ASSIGN_DIVIDE => 8
| ASSIGN_MODULO => 9
| ASSIGN_MULTIPLY => 10
| ASSIGN_SUBTRACT => 11
| BRACKET_CLOSE => 12
| BRACKET_CURLY_CLOSE => 13
| BRACKET_CURLY_OPEN => 14
| BRACKET_OPEN => 15
| BITAND => 16
| BITCOMPLEMENT => 17
| BITOR => 18
| CASE => 19
| COLON => 20
| COMMA => 21
| COMPARE_EQUAL => 22
| COMPARE_EQUAL_CONTENT => 23
| COMPARE_LESS => 24
| COMPARE_LESS_EQUAL => 25
| COMPARE_GREATER => 26
| COMPARE_GREATER_EQUAL => 27
| COMPARE_UNEQUAL => 28
| COMPARE_UNEQUAL_CONTENT => 29
| CONST_BOOLEAN => 30
| CONST_DOUBLE => 31
| CONST_FLOAT => 32
| CONST_INTEGER => 33
| CONST_LITERAL => 34
| CONST_NULL => 35
| ENDOFFILE => 36
| GREATER => 37
| IDENTIFIER => 38
| KEYWORD => 39
| LANGUAGE_FEATURE_STATE => 40
| LESS => 41
| MATH_ADDITION => 42
| MATH_DIVIDE => 43
| MATH_MODULO => 44
| MATH_MULTIPLY => 45
| MATH_SUBTRACT => 46
| MEMORY_LAYOUT => 47
| MODIFIER => 48
| MUTABILITY => 49
| NAND => 50
| NIL => 51
| NOR => 52
| OPERATOR_DECREMENT => 53
| OPERATOR_INCREMENT => 54
| OPERATOR_IS => 55
| OPERATOR_NOT => 56
| OPERATOR_RANGE => 57
| OPERATOR_SCOPE => 58
| OPERATOR_SHIFT_LEFT => 59
| OPERATOR_SHIFT_RIGHT => 60
| OPERATOR_VALIDATE => 61
| OR => 62
| PARENTHESIS_CLOSE => 63
| PARENTHESIS_OPEN => 64
| QUESTION_MARK => 65
| QUOTATION_DOUBLE => 66
| RESERVED_WORD => 67
| SEMICOLON => 68
| TILDE => 69
| TYPECAST => 70
| UNKNOWN => 71
| VISIBILITY => 72
| WHITESPACE => 73
end%N.
Definition of_tnum (n : N) : ttype := match n with
| 0 => ACCESS_MODE
| 1 => AND
| 2 => ARRAY_SUBSCRIPT
| 3 => ASSIGN
| 4 => ASSIGN_ADDITION
| 5 => ASSIGN_BITAND
| 6 => ASSIGN_BITCOMPLEMENT
| 7 => ASSIGN_BITOR
| 8 => ASSIGN_DIVIDE
| 9 => ASSIGN_MODULO
| 10 => ASSIGN_MULTIPLY
| 11 => ASSIGN_SUBTRACT
| 12 => BRACKET_CLOSE
| 13 => BRACKET_CURLY_CLOSE
| 14 => BRACKET_CURLY_OPEN
| 15 => BRACKET_OPEN
| 16 => BITAND
| 17 => BITCOMPLEMENT
| 18 => BITOR
| 19 => CASE
| 20 => COLON
| 21 => COMMA
| 22 => COMPARE_EQUAL
| 23 => COMPARE_EQUAL_CONTENT
| 24 => COMPARE_LESS
| 25 => COMPARE_LESS_EQUAL
| 26 => COMPARE_GREATER
| 27 => COMPARE_GREATER_EQUAL
| 28 => COMPARE_UNEQUAL
| 29 => COMPARE_UNEQUAL_CONTENT
| 30 => CONST_BOOLEAN
| 31 => CONST_DOUBLE
| 32 => CONST_FLOAT
| 33 => CONST_INTEGER
| 34 => CONST_LITERAL
| 35 => CONST_NULL
| 36 => ENDOFFILE
| 37 => GREATER
| 38 => IDENTIFIER
| 39 => KEYWORD
| 40 => LANGUAGE_FEATURE_STATE
| 41 => LESS
| 42 => MATH_ADDITION
| 43 => MATH_DIVIDE
| 44 => MATH_MODULO
| 45 => MATH_MULTIPLY
| 46 => MATH_SUBTRACT
| 47 => MEMORY_LAYOUT
| 48 => MODIFIER
| 49 => MUTABILITY
| 50 => NAND
| 51 => NIL
| 52 => NOR
| 53 => OPERATOR_DECREMENT
| 54 => OPERATOR_INCREMENT
| 55 => OPERATOR_IS
| 56 => OPERATOR_NOT
| 57 => OPERATOR_RANGE
| 58 => OPERATOR_SCOPE
| 59 => OPERATOR_SHIFT_LEFT
| 60 => OPERATOR_SHIFT_RIGHT
| 61 => OPERATOR_VALIDATE
| 62 => OR
| 63 => PARENTHESIS_CLOSE
| 64 => PARENTHESIS_OPEN
| 65 => QUESTION_MARK
| 66 => QUOTATION_DOUBLE
| 67 => RESERVED_WORD
| 68 => SEMICOLON
| 69 => TILDE
| 70 => TYPECAST
| 71 => UNKNOWN
| 72 => VISIBILITY
| 73 => WHITESPACE
| _ => UNKNOWN end%N.
Definition ttype_eqb (a b : ttype) : bool := (tnum a =? tnum b)%N.

(** Token::Category, Token.h:24-39. *)
Inductive category := CNone | Assignment | Comparator | Constant | Ignorable | Identifier | Keyword | Modifier
  | Operator | ReservedWord.

(** Token.h:147-151; the position is line and column (the file name is constant). *)
Record token := Token { k_cat : category; k_type : ttype; k_text : str; k_line : N; k_col : N; k_opt : bool }.

(** Tokenizer.cpp:20-22. *)
Definition control_chars : str := $"#.,;:=()[]{}!?<>+-*/%&|~'" ++ [chr 34] ++ $" ".
Definition white_chars : str := [chr 9; chr 10; chr 13; chr 32].
Definition is_white (c : ascii) : bool := mem c white_chars.
Definition is_delim (c : ascii) : bool := mem c (control_chars ++ white_chars).

(** Word lists: Common/Types.cpp:31-152 with Consts.h. *)
Definition access_modes : list str := [$"ref"; $"val"].
Definition language_features : list str := [$"deprecated"; $"notimplemented"; $"stable"; $"unstable"].
Definition keywords : list str := [$"assert"; $"break"; $"case"; $"cast"; $"catch"; $"continue"; $"copy"; $"default"; $"delete"; $"else"; $"exit"; $"finally"; $"for"; $"foreach"; $"if"; $"new"; $"print"; $"return"; $"streval"; $"switch"; $"throw"; $"try"; $"typeid"; $"var"; $"while"].
Definition memory_layouts : list str := [$"abstract"; $"final"; $"override"; $"static"; $"virtual"].
Definition modifiers : list str := [$"recursive"; $"sealed"; $"throws"].
Definition mutabilities : list str := [$"const"; $"modify"].
Definition reserved_words : list str := [$"enum"; $"extends"; $"implements"; $"import"; $"interface"; $"namespace"; $"object"; $"operator"; $"replicates"; $"."].
Definition visibilities : list str := [$"private"; $"protected"; $"public"].
Definition in_words (s : str) (l : list str) : bool := existsb (str_eqb s) l.

(** isDouble/isFloat/isIntegerWithType/isInteger/isLiteral, Tokenizer.cpp:127-259. *)
Definition digits_then (s : str) (c : ascii) : bool :=
  (1 <? length s)%nat && forallb is_digit (take (length s - 1) s) && bool_decide (last s = Some c).
Definition is_integer (s : str) : bool := negb (bool_decide (s = [])) && forallb is_digit s.
Definition is_literal (s : str) : bool :=
  (1 <? length s)%nat && bool_decide (head s = Some (chr 34)) && bool_decide (last s = Some (chr 34)).

Definition drop_last (s : str) : str := take (length s - 1) s.

(** The single character cases of addToken, Tokenizer.cpp:45-77: the outer option is
    "matches a case", the inner one "produces a token". *)
Definition classify_char (c : ascii) : option (option (category * ttype)) :=
  if is_white c then Some None
  else match nat_of_ascii c with
  | 59 => Some (Some (CNone, SEMICOLON))
  | 58 => Some (Some (CNone, COLON))
  | 46 => Some (Some (CNone, OPERATOR_SCOPE))
  | 44 => Some (Some (CNone, COMMA))
  | 123 => Some (Some (CNone, BRACKET_CURLY_OPEN))
  | 125 => Some (Some (CNone, BRACKET_CURLY_CLOSE))
  | 91 => Some (Some (CNone, BRACKET_OPEN))
  | 93 => Some (Some (CNone, BRACKET_CLOSE))
  | 40 => Some (Some (CNone, PARENTHESIS_OPEN))
  | 41 => Some (Some (CNone, PARENTHESIS_CLOSE))
  | 61 => Some (Some (Assignment, ASSIGN))
  | 60 => Some (Some (Operator, COMPARE_LESS))
  | 62 => Some (Some (Operator, COMPARE_GREATER))
  | 38 => Some (Some (Operator, BITAND))
  | 124 => Some (Some (Operator, BITOR))
  | 43 => Some (Some (Operator, MATH_ADDITION))
  | 47 => Some (Some (Operator, MATH_DIVIDE))
  | 37 => Some (Some (Operator, MATH_MODULO))
  | 42 => Some (Some (Operator, MATH_MULTIPLY))
  | 45 => Some (Some (Operator, MATH_SUBTRACT))
  | 63 => Some (Some (Operator, QUESTION_MARK))
  | 33 => Some (Some (Operator, OPERATOR_NOT))
  | 126 => Some (Some (Operator, TILDE))
  | _ => None
  end%nat.

(** The default case, Tokenizer.cpp:78-105: category, type, content, optional flag. *)
Definition classify_word (s : str) : category * ttype * str * bool :=
  if str_eqb s ($"is") then (Operator, OPERATOR_IS, s, false)
  else if str_eqb s ($"..") then (Operator, OPERATOR_RANGE, s, false)
  else if in_words s access_modes then (Modifier, ACCESS_MODE, s, false)
  else if str_eqb s ($"false") || str_eqb s ($"true") then (Constant, CONST_BOOLEAN, s, false)
  else if digits_then s (chr 100) then (Constant, CONST_DOUBLE, drop_last s, false)
  else if digits_then s (chr 102) then (Constant, CONST_FLOAT, drop_last s, false)
  else if digits_then s (chr 105) then (Constant, CONST_INTEGER, drop_last s, false)
  else if is_integer s then (Constant, CONST_INTEGER, s, false)
  else if in_words s keywords then (Keyword, KEYWORD, s, false)
  else if in_words s language_features then (Modifier, LANGUAGE_FEATURE_STATE, s, true)
  else if is_literal s then (Constant, CONST_LITERAL, take (length s - 2) (drop 1 s), false)
  else if in_words s memory_layouts then (Modifier, MEMORY_LAYOUT, s, true)
  else if in_words s modifiers then (Modifier, MODIFIER, s, true)
  else if in_words s mutabilities then (Modifier, MUTABILITY, s, true)
  else if in_words s reserved_words then (ReservedWord, RESERVED_WORD, s, false)
  else if in_words s visibilities then (Modifier, VISIBILITY, s, true)
  else (CNone, IDENTIFIER, s, false).

(** addToken(content, position), Tokenizer.cpp:38-110: the token made of a text, if any. *)
Definition make_token (s : str) (line col : N) : option token :=
  match match s with c :: _ => classify_char c | [] => None end with
  | Some None => None
  | Some (Some (cat, ty)) => Some (Token cat ty s line col false)
  | None => let '(cat, ty, txt, opt) := classify_word s in Some (Token cat ty txt line col opt)
  end.
Definition push_opt {A} (o : option A) (l : list A) : list A := match o with Some x => x :: l | None => l end.

(** Local variables of process(), Tokenizer.cpp:403-413; the token list is kept newest first. *)
Record tstate := TState {
  t_toks : list token; t_tok : str; t_esc : bool; t_mlc : bool; t_slc : bool; t_str : bool;
  t_prev : ascii; t_line : N; t_col : N }.
Definition t_init : tstate := TState [] [] false false false false (chr 0) 1 1.

Definition pop_back (l : list token) : res (list token) :=
  match l with _ :: l' => Ok l' | [] => UB end.

(** Tokenizer.cpp:418-433: does this character open a comment? New flags (line comment,
    block comment) and token list. *)
Definition open_comment (s : tstate) (c : ascii) : res (bool * bool * list token) :=
  let quiet := negb (t_mlc s) && negb (t_slc s) && negb (t_str s) in
  if quiet && bool_decide (c = chr 35) then Ok (true, t_mlc s, t_toks s)
  else if quiet && bool_decide (t_prev s = chr 47) && bool_decide (c = chr 47) then
    let! l := pop_back (t_toks s) in Ok (true, t_mlc s, l)
  else if quiet && bool_decide (t_prev s = chr 47) && bool_decide (c = chr 42) then
    let! l := pop_back (t_toks s) in Ok (t_slc s, true, l)
  else Ok (t_slc s, t_mlc s, t_toks s).

(** Tokenizer.cpp:435-473, outside comments: token list, pending text, escape and string flags and
    the possibly cleared current character. *)
Definition read_char (s : tstate) (toks : list token) (c : ascii) : list token * str * bool * bool * ascii :=
  if t_esc s then (toks, t_tok s ++ [c], false, t_str s, chr 0)
  else
    let str' := if bool_decide (c = chr 34) then negb (t_str s) else t_str s in
    let esc' := negb (bool_decide (c = chr 34)) && t_str s && bool_decide (c = chr 92) in
    if negb esc' && negb (bool_decide (c = chr 0)) then
      if negb str' && is_delim c then
        let '(toks1, c1) :=
          match t_tok s with
          | [] => (toks, c)
          | _ => if bool_decide (c = chr 34)
                 then (push_opt (make_token (t_tok s ++ [c]) (t_line s) (t_col s)) toks, chr 0)
                 else (push_opt (make_token (t_tok s) (t_line s) (t_col s)) toks, c)
          end in
        (if bool_decide (c1 = chr 0) then toks1
         else push_opt (make_token [c1] (t_line s) (t_col s)) toks1, [], esc', str', c1)
      else (toks, t_tok s ++ [c], esc', str', c)
    else (toks, t_tok s, esc', str', c).

(** One iteration of the loop, Tokenizer.cpp:415-492. *)
Definition t_step (s : tstate) (c : ascii) : res tstate :=
  let! o := open_comment s c in
  let '(slc, mlc, toks) := o in
  let '(toks', tok', esc', str', c') :=
    if mlc || slc then (toks, t_tok s, t_esc s, t_str s, c) else read_char s toks c in
  let mlc' := if mlc && bool_decide (t_prev s = chr 42) && bool_decide (c' = chr 47) then false else mlc in
  if bool_decide (c' = chr 10)
  then Ok (TState toks' tok' esc' mlc' false str' (chr 0) (t_line s + 1) 1)
  else Ok (TState toks' tok' esc' mlc' slc str' c' (t_line s) (t_col s + 1)).

Fixpoint t_run (s : tstate) (text : str) : res tstate :=
  match text with
  | [] => Ok s
  | c :: text' => let! s' := t_step s c in t_run s' text'
  end.

Definition eof_token : token := Token CNone ENDOFFILE [] 0 0 false.

(** Tokenizer.cpp:401-498: the token list before the merge passes. The loop also reads the
    terminating NUL (offset <= size), after which previousChar is 0, so the pending text is dropped. *)
Definition raw_tokens (text : str) : res (list token) :=
  let! s := t_run t_init (text ++ [chr 0]) in
  Ok (reverse (t_toks s) ++ [eof_token]).

(** ** Merge passes *)
(** Tokenizer.cpp:521-632. *)
Definition merge_assign (a b : ttype) : option (category * ttype * str) :=
  match b with
  | ASSIGN =>
      match a with
      | ASSIGN => Some (Comparator, COMPARE_EQUAL, $"==")
      | COMPARE_EQUAL => Some (Comparator, COMPARE_EQUAL_CONTENT, $"===")
      | COMPARE_UNEQUAL => Some (Comparator, COMPARE_UNEQUAL_CONTENT, $"!==")
      | BITAND => Some (Assignment, ASSIGN_BITAND, $"&=")
      | BITCOMPLEMENT => Some (Assignment, ASSIGN_BITCOMPLEMENT, $"~=")
      | BITOR => Some (Assignment, ASSIGN_BITOR, $"|=")
      | OPERATOR_NOT => Some (Comparator, COMPARE_UNEQUAL, $"!=")
      | GREATER | COMPARE_GREATER => Some (Comparator, COMPARE_GREATER_EQUAL, $">=")
      | LESS | COMPARE_LESS => Some (Comparator, COMPARE_LESS_EQUAL, $"<=")
      | MATH_ADDITION => Some (Assignment, ASSIGN_ADDITION, $"+=")
      | MATH_DIVIDE => Some (Assignment, ASSIGN_DIVIDE, $"/=")
      | MATH_MODULO => Some (Assignment, ASSIGN_MODULO, $"*=")
      | MATH_MULTIPLY => Some (Assignment, ASSIGN_MULTIPLY, $"*=")
      | MATH_SUBTRACT => Some (Assignment, ASSIGN_SUBTRACT, $"-=")
      | _ => None
      end
  | _ => None
  end.
(** Tokenizer.cpp:303-388. *)
Definition merge_operator (a b : ttype) : option (category * ttype * str) :=
  match a, b with
  | BITAND, BITAND => Some (Operator, AND, $"&&")
  | BITOR, BITOR => Some (Operator, OR, $"||")
  | OPERATOR_NOT, BITAND => Some (Operator, NAND, $"!&")
  | OPERATOR_NOT, BITOR => Some (Operator, NOR, $"!|")
  | OPERATOR_SCOPE, OPERATOR_SCOPE => Some (Operator, OPERATOR_RANGE, $"..")
  | MATH_SUBTRACT, MATH_SUBTRACT => Some (Operator, OPERATOR_DECREMENT, $"--")
  | MATH_ADDITION, MATH_ADDITION => Some (Operator, OPERATOR_INCREMENT, $"++")
  | COMPARE_LESS, COMPARE_LESS => Some (Operator, OPERATOR_SHIFT_LEFT, $"<<")
  | COMPARE_GREATER, COMPARE_GREATER => Some (Operator, OPERATOR_SHIFT_RIGHT, $">>")
  | BRACKET_OPEN, BRACKET_CLOSE => Some (Operator, ARRAY_SUBSCRIPT, $"[]")
  | _, _ => None
  end.
(** The loops of mergeAssignments (510-643) and mergeOperators (291-399): the list built so
    far, newest first. *)
Fixpoint merge_pass (f : ttype -> ttype -> option (category * ttype * str)) (acc toks : list token) : list token :=
  match toks with
  | [] => reverse acc
  | t :: toks' =>
      match acc with
      | l :: acc' =>
          match f (k_type l) (k_type t) with
          | Some (c, ty, s) => merge_pass f (Token c ty s (k_line t) (k_col t) false :: acc') toks'
          | None => merge_pass f (t :: acc) toks'
          end
      | [] => merge_pass f [t] toks'
      end
  end.

(** replaceConstDataTypesPatternMatching, Tokenizer.cpp:780-877. *)
Definition const_patterns : list (list ttype) := [
  [CONST_INTEGER; OPERATOR_SCOPE; CONST_DOUBLE];
  [CONST_INTEGER; OPERATOR_SCOPE; CONST_FLOAT];
  [CONST_INTEGER; OPERATOR_SCOPE; CONST_INTEGER];
  [CONST_INTEGER; OPERATOR_SCOPE; IDENTIFIER];
  [CONST_INTEGER; IDENTIFIER]].
(** std::search by type: the tokens before the first match. *)
Definition starts_with (p : list ttype) (toks : list token) : bool :=
  bool_decide (map tnum p = map (fun t => tnum (k_type t)) (take (length p) toks)).
Fixpoint search (p : list ttype) (toks : list token) : option nat :=
  if starts_with p toks then Some 0%nat
  else match toks with [] => None | _ :: toks' => option_map S (search p toks') end.
Fixpoint search_any (ps : list (list ttype)) (toks : list token) : option (nat * nat) :=
  match ps with
  | [] => None
  | p :: ps' => match search p toks with Some i => Some (i, length p) | None => search_any ps' toks end
  end.
Definition set_type (t : token) (ty : ttype) : token := Token (k_cat t) ty (k_text t) (k_line t) (k_col t) (k_opt t).
Definition set_text (t : token) (s : str) : token := Token (k_cat t) (k_type t) s (k_line t) (k_col t) (k_opt t).
(** The inner loop, 841-870. *)
Fixpoint combine (op : token) (ts : list token) : res token :=
  match ts with
  | [] => Ok op
  | t :: ts' =>
      match k_type t with
      | IDENTIFIER =>
          if str_eqb (k_text t) ($"d") then combine (set_type op CONST_DOUBLE) ts'
          else if str_eqb (k_text t) ($"f") then combine (set_type op CONST_FLOAT) ts'
          else if str_eqb (k_text t) ($"i") then Throw "SyntaxError"
          else combine (set_text op (k_text op ++ k_text t)) ts'
      | CONST_DOUBLE => combine (set_text (set_type op CONST_DOUBLE) (k_text op ++ k_text t)) ts'
      | CONST_FLOAT => combine (set_text (set_type op CONST_FLOAT) (k_text op ++ k_text t)) ts'
      | CONST_INTEGER => Throw "SyntaxError"
      | _ => combine (set_text op (k_text op ++ k_text t)) ts'
      end
  end.
(** The outer loop; every iteration removes a token, so the list length is enough fuel. *)
Fixpoint const_pass (fuel : nat) (toks : list token) : res (list token) :=
  match search_any const_patterns toks with
  | None => Ok toks
  | Some (i, n) =>
      match fuel, drop i toks with
      | S fuel', op :: rest =>
          let! op' := combine op (take (n - 1) rest) in
          const_pass fuel' (take i toks ++ op' :: drop (n - 1) rest)
      | _, _ => Fuel
      end
  end.

(** replaceOperators, Tokenizer.cpp:882-913; the part already passed, newest first. *)
Definition is_operator_word (t : token) : bool :=
  ttype_eqb (k_type t) RESERVED_WORD && str_eqb (k_text t) ($"operator").
Definition is_assign_or_op (t : token) : bool :=
  match k_cat t with Assignment | Operator => true | _ => false end.
Fixpoint operator_pass (acc toks : list token) : list token :=
  match toks with
  | [] => reverse acc
  | t :: toks' =>
      match acc with
      | l :: acc' =>
          if is_assign_or_op l && is_operator_word t
          then operator_pass (set_text (set_type t IDENTIFIER) (k_text l ++ $"operator") :: acc') toks'
          else if is_operator_word l
          then operator_pass (set_text (set_type t IDENTIFIER) ($"operator" ++ k_text t) :: acc') toks'
          else operator_pass (t :: acc) toks'
      | [] => operator_pass [t] toks'
      end
  end.

(** Tokenizer.cpp:500-504. *)
Definition passes (toks : list token) : res (list token) :=
  let a := merge_pass merge_operator [] (merge_pass merge_assign [] toks) in
  let! b := const_pass (length a) a in
  Ok (operator_pass [] b).
Definition tokenize (text : str) : res (list token) :=
  let! l := raw_tokens text in passes l.
