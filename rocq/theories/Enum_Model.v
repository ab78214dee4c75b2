(** Model of enumeration declarations: Core/Designtime/Analyser.cpp:38-99. *)
From Verif Require Import Base Text_Model Tok_Model Tok_Proofs.

(** Largest value of int64_t; one more is undefined behaviour. *)
Definition max64 : Z := 9223372036854775807.
Definition succ64 (z : Z) : res Z := if (z =? max64)%Z then UB else Ok (z + 1)%Z.

(** expect, Common/Utils.cpp:17-22; reading the end of the list is undefined behaviour. *)
Definition expect (ty : ttype) (toks : list token) : res (token * list token) :=
  match toks with
  | [] => UB
  | t :: toks' => if bool_decide (k_type t = ty) then Ok (t, toks') else Throw "SyntaxError"
  end.

(** One entry up to its value, Analyser.cpp:46-61: name, value and the tokens behind. [value] is the value of
    the previous entry, -1 at the start. *)
Definition enum_entry (value : Z) (toks : list token) : res (str * Z * list token) :=
  let! a := expect IDENTIFIER toks in
  let '(t, toks1) := a in
  match toks1 with
  | [] => UB
  | t1 :: toks2 =>
      if bool_decide (k_type t1 = ASSIGN) then
        let! b := expect CONST_INTEGER toks2 in
        let '(t2, toks3) := b in
        Ok (k_text t, string_to_int (k_text t2), toks3)
      else
        let! v := succ64 value in Ok (k_text t, v, toks1)
  end.

(** buildEnum, Analyser.cpp:38-99. [previous] and [value] are always equal at the head of the loop, so one number is
    kept; [acc] holds the entries defined so far, newest first (SymbolScope::define, Scope.cpp:33-45, refuses a name
    twice). The position of the end token, read at 58, 63 and 98 to report an error, is undefined behaviour at the end
    of the list.
    Simplified: what createInstance and the setters of the entry do (68-75) is kept as the name and value only;
    tokens are a list, so nothing behind the current one is read. *)
Fixpoint enum_loop (fuel : nat) (value : Z) (acc : list (str * Z)) (toks : list token) : res (list (str * Z)) :=
  match fuel with
  | O => Fuel
  | S fuel' =>
      match toks with
      | [] => UB
      | _ =>
          let! e := enum_entry value toks in
          let '(name, v, rest) := e in
          if (v <=? value)%Z then match rest with [] => UB | _ => Throw "SyntaxError" end
          else if existsb (fun x : str * Z => str_eqb (fst x) name) acc then Throw "DuplicateIdentifier"
          else
            let acc' := (name, v) :: acc in
            match rest with
            | [] => UB
            | t :: rest' =>
                if bool_decide (k_type t = COMMA) then
                  match rest' with
                  | [] => Throw "SyntaxError"
                  | _ => enum_loop fuel' v acc' rest'
                  end
                else if bool_decide (k_type t = SEMICOLON) then Ok (reverse acc')
                else Throw "SyntaxError"
            end
      end
  end.
Definition build_enum (toks : list token) : res (list (str * Z)) := enum_loop (S (length toks)) (-1) [] toks.
