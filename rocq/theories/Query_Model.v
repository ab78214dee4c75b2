(** Model of the tokenizer of csvDB.
    Code: /repo/Projects/Library/csvDB/Tokenizer.os and Token.os (Slang programs, followed statement by statement).
    The characters ahead of the iterator are a text; at its end peek answers the empty text (224-228), and consume may step onto
    the end once and then throws (CharacterIterator.os:57-65, as in Json_Model), so that a loop that does not stop at the end throws.
    Simplified: positions in the query are left out, and so is the value of the last token, EOF.
    The case LINEBREAK (142-145) is never reached, as line breaks are white space (35-36), nor is EQUAL (163-165) behind ASSIGN.
    Not modelled: QueryExecutor.os, Expressions.os, App.os. *)
From Verif Require Import Base Text_Model.

(** TokenType, Token.os, as far as the tokenizer makes them. *)
Inductive kind :=
  | QAnd | QBoolean | QElse | QExplain | QFrom | QIf | QLimit | QOr | QSelect | QThen | QWhere
  | QIdentifier | QInteger | QString | QAssign | QColon | QSemicolon | QComma | QDot | QUnequal | QLessEqual | QLess
  | QGreaterEqual | QGreater | QPlus | QMinus | QMultiply | QDivide | QLparen | QRparen | QEof.
Definition token : Type := kind * str.

(** Constructor, Tokenizer.os:12-36. *)
Definition CHARS : str := $"ABCDEFGHIJKLMNOPRSTUVWXYZabcdefghijklmnoprstuvwxyz_".
Definition DIGITS : str := $"0123456789".
Definition RESERVED_WORDS : list token :=
  [(QAnd, $"AND"); (QBoolean, $"FALSE"); (QBoolean, $"TRUE"); (QElse, $"ELSE"); (QExplain, $"EXPLAIN"); (QFrom, $"FROM");
   (QIf, $"IF"); (QLimit, $"LIMIT"); (QOr, $"OR"); (QSelect, $"SELECT"); (QThen, $"THEN"); (QWhere, $"WHERE")].
Definition WHITESPACES : str := [chr 32; chr 9; chr 13; chr 10; chr 10].
Definition quote : ascii := chr 34.

(** getDigit, 81-89: the empty text at the end counts as a digit (String.os:86-88), so the loop goes on there and throws. *)
Fixpoint get_digit (s acc : str) : res (token * str) :=
  match s with
  | [] => Throw "OutOfBoundsException"
  | c :: r => if mem c DIGITS then get_digit r (acc ++ [c]) else Ok ((QInteger, acc), s)
  end.
(** getID, 91-110: the loop, then the first reserved word that is the word in capitals. *)
Definition word_token (word : str) : token :=
  match List.find (fun t => str_eqb (snd t) (map to_upper word)) RESERVED_WORDS with
  | Some t => t
  | None => (QIdentifier, word)
  end.
Fixpoint get_id (s acc : str) : token * str :=
  match s with
  | [] => (word_token acc, [])
  | c :: r => if mem c CHARS || mem c DIGITS then get_id r (acc ++ [c]) else (word_token acc, s)
  end.
(** A text in quotes, 127-141, behind the first quote. *)
Fixpoint get_string (s acc : str) : res (token * str) :=
  match s with
  | [] => Throw "OutOfBoundsException"
  | c :: r => if str_eqb [c] [quote] then Ok ((QString, acc), r) else get_string r (acc ++ [c])
  end.
(** The cases of one or two characters, 146-200, in their order; peek(2) is the first of [r]. *)
Definition get_sign (c : ascii) (r : str) : res (token * str) :=
  let one k := Ok ((k, [c]), r) in
  let two k := match r with [] => one k | d :: r' => Ok ((k, [c; d]), r') end in
  let ahead t := match r with [] => false | d :: _ => str_eqb [d] t end in
  if str_eqb [c] ($"=") then one QAssign
  else if str_eqb [c] ($":") then one QColon
  else if str_eqb [c] ($";") then one QSemicolon
  else if str_eqb [c] ($",") then one QComma
  else if str_eqb [c] ($".") then one QDot
  else if str_eqb [c] ($"<") && ahead ($">") then two QUnequal
  else if str_eqb [c] ($"<") && ahead ($"=") then two QLessEqual
  else if str_eqb [c] ($"<") then one QLess
  else if str_eqb [c] ($">") && ahead ($"=") then two QGreaterEqual
  else if str_eqb [c] ($">") then one QGreater
  else if str_eqb [c] ($"+") then one QPlus
  else if str_eqb [c] ($"-") then one QMinus
  else if str_eqb [c] ($"*") then one QMultiply
  else if str_eqb [c] ($"/") then one QDivide
  else if str_eqb [c] ($"(") then one QLparen
  else if str_eqb [c] ($")") then one QRparen
  else Throw "invalid token".
(** getNextToken, 112-206. *)
Fixpoint next_token (s : str) : res (option (token * str)) :=
  match s with
  | [] => Ok None
  | c :: r =>
      if mem c CHARS then Ok (Some (get_id s []))
      else if mem c DIGITS then let! p := get_digit s [] in Ok (Some p)
      else if mem c WHITESPACES then next_token r
      else if str_eqb [c] [quote] then let! p := get_string r [] in Ok (Some p)
      else let! p := get_sign c r in Ok (Some p)
  end.
(** parse, 39-54; fuel for the loop. *)
Fixpoint parse (fuel : nat) (s : str) : res (list token) :=
  match fuel with
  | O => Fuel
  | S n =>
      let! t := next_token s in
      match t with
      | None => Ok [(QEof, [])]
      | Some (t, r) => let! l := parse n r in Ok (t :: l)
      end
  end.
