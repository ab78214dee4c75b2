(** Model of the JSON library.
    Code: /repo/Projects/Library/libJson/Value.os, Array.os, Object.os, Writer.os, Tokenizer.os, Token.os, Reader.os
    and /repo/Projects/Library/System/CharacterIterator.os (Slang programs, followed statement by statement).
    Simplified: token positions are left out; a JsonValue that holds another JsonValue is not modelled; text positions are
    below 2^31; a thrown exception ends the reading (how exceptions travel is the subject of C28-C32); the token list and the
    members of arrays and objects are plain lists (C49-C54 prove what the collections do). *)
From Verif Require Import Base Text_Model.

(** ** Values *)
(** JsonValue, JsonArray, JsonObject: mValueType with mValue or mMembers. Value.os:12-25, 157-190; Array.os:63; Object.os:132. *)
Inductive json := JNull | JBool (b : bool) | JNum (t : str) | JStr (s : str) | JArr (l : list json) | JObj (l : list (str * json)).
Definition quote : str := [chr 34].
Definition bool_text (b : bool) : str := if b then $"true" else $"false".
(** toString of a JsonValue, Value.os:203-228. mValue holds the text of the bool (157-162), and the condition mValue ? ... asks
    whether that text is true. *)
Definition scalar_text (v : json) : str :=
  match v with
  | JBool b => if string_to_bool (bool_text b) then $"true" else $"false"
  | JStr s => quote ++ s ++ quote
  | JNum t => t
  | _ => $"null"
  end.
(** One round of the loops that collect members: a separator if the text so far is true. Array.os:46-48, Object.os:98-100,
    Writer.os:26-32, 43-49. *)
Definition add_member (sep acc item : str) : str := (if string_to_bool acc then acc ++ sep else acc) ++ item.

(** toString, Array.os:43-51, Object.os:95-103. *)
Fixpoint value_text (v : json) : str :=
  match v with
  | JArr l =>
      $"[ " ++ (fix go acc l := match l with [] => acc | x :: r => go (add_member ($", ") acc (value_text x)) r end) [] l ++ $" ]"
  | JObj l =>
      $"{ " ++ (fix go acc l := match l with
                                | [] => acc
                                | (k, x) :: r => go (add_member ($", ") acc (quote ++ k ++ quote ++ $": " ++ value_text x)) r
                                end) [] l ++ $" }"
  | _ => scalar_text v
  end.

(** ** Writer.os *)
(** mNumIndents, mWhiteSpaceEnd, mWhiteSpaceStart: 75-78. *)
Record writer := Writer { w_indents : nat; w_end : str; w_start : str }.
(** Constructors, 14-19 and 83-88; LINEBREAK is a line feed (Extensions/System/Strings/StringsExtension.cpp:47-54). *)
Definition plain_writer : writer := Writer 0 ($" ") ($" ").
Definition styled_writer : writer := Writer 3 [chr 10] [chr 10].
(** indent, 71-73. *)
Definition indent (w : writer) (level : nat) : str := List.repeat (chr 32) (level * w_indents w).
(** toString, 21-68; [level] is mIndentation. *)
Fixpoint write (w : writer) (level : nat) (v : json) : str :=
  match v with
  | JArr l =>
      let result := (fix go acc l := match l with
                                     | [] => acc
                                     | x :: r => go (add_member ($"," ++ w_end w) acc (indent w (S level) ++ write w (S level) x)) r
                                     end) [] l in
      $"[" ++ w_start w ++ result ++ w_end w ++ indent w level ++ $"]"
  | JObj l =>
      let result := (fix go acc l := match l with
                                     | [] => acc
                                     | (k, x) :: r =>
                                         go (add_member ($"," ++ w_end w) acc
                                               (indent w (S level) ++ quote ++ k ++ quote ++ $": " ++ write w (S level) x)) r
                                     end) [] l in
      $"{" ++ w_start w ++ result ++ w_end w ++ indent w level ++ $"}"
  | _ => scalar_text v
  end.

(** ** CharacterIterator.os *)
(** The characters ahead; [None] when the index stands on the end (mCurrentIndex = mLength). *)
Definition chars := option str.
(** peek, 71-77. *)
Definition c_peek (i : chars) : res str :=
  match i with Some (c :: _) => Ok [c] | Some [] => Ok [] | None => Throw "OutOfBoundsException" end.
(** next, 57-65, and current, 35-44. *)
Definition c_next (i : chars) : res (str * chars) :=
  match i with Some (c :: r) => Ok ([c], Some r) | Some [] => Ok ([], None) | None => Throw "OutOfBoundsException" end.

(** ** Tokenizer.os *)
Inductive jtok := KBoolean | KBracketClose | KBracketOpen | KColon | KComma | KCurlyClose | KCurlyOpen | KIdentifier | KNull | KNumber | KString.
Definition token : Type := jtok * str.
(** Constructor, 14-24: the letters q and Q are missing. *)
Definition CHARS : str := $"ABCDEFGHIJKLMNOPRSTUVWXYZabcdefghijklmnoprstuvwxyz_".
Definition DIGITS : str := $"0123456789.-+e".
Definition WHITESPACES : str := [chr 32; chr 9; chr 13; chr 10; chr 10].
(** String.Contains (String.os:86-88) of one character, or of the empty text. 140-150. *)
Definition among (set c : str) : bool := match c with [] => true | x :: _ => mem x set end.
(** peek, 152-158: exceptions are swallowed. *)
Definition t_peek (i : chars) : str := match c_peek i with Ok c => c | _ => [] end.
(** getDigit, 66-74. *)
Fixpoint get_digit (fuel : nat) (i : chars) (acc : str) : res (str * chars) :=
  match fuel with
  | O => Fuel
  | S fuel' =>
      if among DIGITS (t_peek i) then let! p := c_next i in get_digit fuel' (snd p) (acc ++ fst p) else Ok (acc, i)
  end.
(** getID, 76-95: the loop, then the reserved words of 18-21. *)
Fixpoint get_id (fuel : nat) (i : chars) (acc : str) : res (str * chars) :=
  match fuel with
  | O => Fuel
  | S fuel' =>
      let c := t_peek i in
      if string_to_bool c && (among CHARS c || among DIGITS c) then let! p := c_next i in get_id fuel' (snd p) (acc ++ fst p)
      else Ok (acc, i)
  end.
Definition word (t : str) : token :=
  let l := to_lower_case t in
  if str_eqb ($"false") l then (KBoolean, $"false") else if str_eqb ($"true") l then (KBoolean, $"true")
  else if str_eqb ($"null") l then (KNull, $"null") else (KIdentifier, t).
(** readString, 191-205, behind the opening quote. *)
Fixpoint read_string (fuel : nat) (i : chars) (acc : str) : res (str * chars) :=
  match fuel with
  | O => Fuel
  | S fuel' =>
      let! c := c_peek i in
      if str_eqb c quote then let! p := c_next i in Ok (acc, snd p)
      else if str_eqb c [chr 92] then
             let! p := c_next i in let! q := c_next (snd p) in read_string fuel' (snd q) (acc ++ fst q)
           else let! p := c_next i in read_string fuel' (snd p) (acc ++ fst p)
  end.
Definition punctuation (c : str) : option jtok :=
  if str_eqb c ($":") then Some KColon else if str_eqb c ($",") then Some KComma
  else if str_eqb c ($"[") then Some KBracketOpen else if str_eqb c ($"]") then Some KBracketClose
  else if str_eqb c ($"{") then Some KCurlyOpen else if str_eqb c ($"}") then Some KCurlyClose else None.
(** getNextToken, 97-138. *)
Fixpoint next_token (fuel : nat) (i : chars) : res (option token * chars) :=
  match fuel with
  | O => Fuel
  | S fuel' =>
      let c := t_peek i in
      if str_eqb c [] then Ok (None, i)
      else if among CHARS c then let! p := get_id fuel' i [] in Ok (Some (word (fst p)), snd p)
      else if among DIGITS c || str_eqb c ($"+") || str_eqb c ($"-") then
        let! p := get_digit fuel' i [] in Ok (Some (KNumber, fst p), snd p)
      else if among WHITESPACES c then let! p := c_next i in next_token fuel' (snd p)
      else if str_eqb c quote then
        let! p := c_next i in let! q := read_string fuel' (snd p) [] in Ok (Some (KString, fst q), snd q)
      else match punctuation c with
           | Some k => let! p := c_next i in Ok (Some (k, fst p), snd p)
           | None => Throw "Exception"
           end
  end.
(** parseString, 26-39. *)
Fixpoint tokens (fuel : nat) (i : chars) : res (list token) :=
  match fuel with
  | O => Fuel
  | S fuel' =>
      let! p := next_token fuel' i in
      match fst p with
      | Some t => let! r := tokens fuel' (snd p) in Ok (t :: r)
      | None => Ok []
      end
  end.

(** ** Reader.os *)
(** An iterator over the tokens that stands on a token: that token and those behind it. *)
Definition tit : Type := token * list token.
(** next. *)
Definition t_next (t : tit) : res tit := match snd t with [] => Throw "OutOfBoundsException" | x :: r => Ok (x, r) end.
(** Enumeration values are compared as numbers. *)
#[global] Instance jtok_eq_dec : EqDecision jtok.
Proof. solve_decision. Defined.
Definition is_kind (k : jtok) (t : tit) : bool := bool_decide (fst (fst t) = k).
(** require, 141-149. *)
Definition require (k : jtok) (t : tit) : res tit :=
  if is_kind k t then match snd t with [] => Ok t | x :: r => Ok (x, r) end else Throw "required".
(** parseArray, 52-69; parseObject, 71-93; parseValue, 95-139. *)
Fixpoint parse_value (fuel : nat) (t : tit) : res (json * tit) :=
  match fuel with
  | O => Fuel
  | S fuel' =>
      match fst (fst t) with
      | KBracketOpen => parse_array fuel' t
      | KCurlyOpen => parse_object fuel' t
      | KBoolean => let! n := t_next t in Ok (JBool (str_eqb (snd (fst t)) ($"true")), n)
      | KIdentifier | KNumber | KString => let! n := t_next t in Ok (JStr (snd (fst t)), n)
      | KNull => let! n := t_next t in Ok (JNull, n)
      | _ => Throw "invalid token"
      end
  end
with parse_array (fuel : nat) (t : tit) : res (json * tit) :=
  match fuel with
  | O => Fuel
  | S fuel' =>
      let! t1 := require KBracketOpen t in
      let! p := parse_items fuel' t1 in
      let! t2 := require KBracketClose (snd p) in
      Ok (JArr (fst p), t2)
  end
with parse_items (fuel : nat) (t : tit) : res (list json * tit) :=
  match fuel with
  | O => Fuel
  | S fuel' =>
      if is_kind KBracketClose t then Ok ([], t)
      else
        let! p := parse_value fuel' t in
        if is_kind KComma (snd p) then
          let! t1 := require KComma (snd p) in
          let! q := parse_items fuel' t1 in Ok (fst p :: fst q, snd q)
        else Ok ([fst p], snd p)
  end
with parse_object (fuel : nat) (t : tit) : res (json * tit) :=
  match fuel with
  | O => Fuel
  | S fuel' =>
      let! t1 := require KCurlyOpen t in
      let! p := parse_members fuel' t1 in
      let! t2 := require KCurlyClose (snd p) in
      Ok (JObj (fst p), t2)
  end
with parse_members (fuel : nat) (t : tit) : res (list (str * json) * tit) :=
  match fuel with
  | O => Fuel
  | S fuel' =>
      if is_kind KCurlyClose t then Ok ([], t)
      else
        let key := snd (fst t) in
        let! t1 := t_next t in
        let! t2 := require KColon t1 in
        let! p := parse_value fuel' t2 in
        if is_kind KComma (snd p) then
          let! t3 := require KComma (snd p) in
          let! q := parse_members fuel' t3 in Ok ((key, fst p) :: fst q, snd q)
        else Ok ([(key, fst p)], snd p)
  end.
(** parse, 15-50; nothing comes back for a text without tokens. *)
Definition parse (fuel : nat) (text : str) : res (option json) :=
  let! ts := tokens fuel (Some text) in
  match ts with
  | [] => Ok None
  | x :: r =>
      match fst x with
      | KBracketOpen =>
          let! p := parse_array fuel (x, r) in
          if is_kind KBracketClose (snd p) then Ok (Some (fst p)) else Throw "invalid JSON array"
      | KCurlyOpen =>
          let! p := parse_object fuel (x, r) in
          if is_kind KCurlyClose (snd p) then Ok (Some (fst p)) else Throw "invalid JSON object"
      | _ =>
          let! p := parse_value fuel (x, r) in
          match snd (snd p) with [] => Ok (Some (fst p)) | _ => Throw "invalid JSON value" end
      end
  end.
