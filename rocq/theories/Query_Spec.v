(** How queries are written. *)
From Verif Require Import Base Text_Model Query_Model.

Definition letter (c : ascii) : Prop :=
  c = "_"%char \/ (65 <= nat_of_ascii c <= 90)%nat \/ (97 <= nat_of_ascii c <= 122)%nat.
Definition digit (c : ascii) : Prop := (48 <= nat_of_ascii c <= 57)%nat.
Definition is_q (c : ascii) : Prop := c = "q"%char \/ c = "Q"%char.
Definition white (c : ascii) : Prop := nat_of_ascii c = 32%nat \/ nat_of_ascii c = 9%nat \/ nat_of_ascii c = 10%nat \/ nat_of_ascii c = 13%nat.
(** The words that mean something, in capitals. *)
Definition keyword (word : str) : option kind :=
  let is t := bool_decide (word = t) in
  if is ($"SELECT") then Some QSelect else if is ($"FROM") then Some QFrom else if is ($"WHERE") then Some QWhere
  else if is ($"LIMIT") then Some QLimit else if is ($"AND") then Some QAnd else if is ($"OR") then Some QOr
  else if is ($"IF") then Some QIf else if is ($"THEN") then Some QThen else if is ($"ELSE") then Some QElse
  else if is ($"EXPLAIN") then Some QExplain else if is ($"TRUE") then Some QBoolean else if is ($"FALSE") then Some QBoolean
  else None.
(** A piece of a query and the token it stands for. A word is a letter followed by letters and digits, without q. *)
Inductive stands : str -> token -> Prop :=
  | stands_keyword w k : letters w -> keyword (map to_upper w) = Some k -> stands w (k, map to_upper w)
  | stands_name w : letters w -> keyword (map to_upper w) = None -> stands w (QIdentifier, w)
  | stands_number w : w <> [] -> Forall digit w -> stands w (QInteger, w)
  | stands_text w : quote ∉ w -> stands (quote :: w ++ [quote]) (QString, w)
  | stands_sign w k :
      (w, k) ∈ [($"=", QAssign); ($":", QColon); ($";", QSemicolon); ($",", QComma); ($".", QDot); ($"<>", QUnequal);
                ($"<=", QLessEqual); ($"<", QLess); ($">=", QGreaterEqual); ($">", QGreater); ($"+", QPlus); ($"-", QMinus);
                ($"*", QMultiply); ($"/", QDivide); ($"(", QLparen); ($")", QRparen)] -> stands w (k, w)
with letters : str -> Prop :=
  | letters_word c w : letter c -> ~ is_q c -> Forall (fun d => (letter d /\ ~ is_q d) \/ digit d) w -> letters (c :: w).
(** What may follow a piece directly: nothing that would make it longer; a number has something behind it. *)
Definition separate (t : token) (rest : str) : Prop :=
  match rest with
  | [] => fst t <> QInteger
  | c :: _ =>
      match fst t with
      | QInteger => ~ digit c
      | QLess => c <> ">"%char /\ c <> "="%char
      | QGreater => c <> "="%char
      | QString | QAssign | QColon | QSemicolon | QComma | QDot | QUnequal | QLessEqual | QGreaterEqual | QPlus | QMinus
      | QMultiply | QDivide | QLparen | QRparen | QEof => True
      | _ => ~ digit c /\ ~ (letter c /\ ~ is_q c)
      end
  end.
(** The front of a query, before [rest]: pieces with any white space before them and between them. *)
Inductive query (rest : str) : str -> list token -> Prop :=
  | query_end ws : Forall white ws -> query rest ws []
  | query_piece ws p t q l : Forall white ws -> stands p t -> separate t (q ++ rest) -> query rest q l ->
      query rest (ws ++ p ++ q) (t :: l).
(** What the tokenizer answers, however long the query is. *)
Definition answers (q : str) (r : res (list token)) : Prop := forall fuel, (length q < fuel)%nat -> parse fuel q = r.
