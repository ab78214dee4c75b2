(** Model of the JSON builders.
    Code: /repo/Projects/Library/libJsonBuilder/Builder.os, StructuredBuilder.os, StyledBuilder.os (Slang programs, followed
    statement by statement).
    Simplified: values are of the types bool, int and string (the texts of float and double are the subject of C22 and C24);
    the depth of brackets is below 2^31. The three builders run the same statements but for line breaks and indentation, so they
    are one program with a [style]. Builder and StyledBuilder are objects, StructuredBuilder is a set of functions of a namespace
    whose variables nothing resets. *)
From Verif Require Import Base Text_Model Json_Model.

(** What is different: the line break behind separators and opening brackets, the unit of the indentation, what getString puts
    around. *)
Record style := Style { y_line : str; y_unit : str; y_front : str; y_back : str }.
(** Builder.os:107-109, StructuredBuilder.os:162-164 *)
Definition compact : style := Style [] [] ($"{ ") ($" }").
(** StyledBuilder.os:6, 158-160 *)
Definition styled : style := Style [chr 10] ($"    ") ($"{" ++ [chr 10]) ([chr 10] ++ $"}" ++ [chr 10]).

(** mIsFirstElement, mValue, mIndentationLevel. Builder.os:5-6, StructuredBuilder.os:4-5, StyledBuilder.os:9-11 *)
Record builder := Builder { b_first : bool; b_value : str; b_level : Z }.
Definition new_builder : builder := Builder true [] 1.

(** Values, and their text when they are appended to a string (StringType.cpp: operator+=) *)
Inductive scalar := SBool (b : bool) | SInt (z : Z) | SString (s : str).
(** Strings are put in quotes as they are. Builder.os:27-28, 51, 60, 69 *)
Definition value_of (v : scalar) : str :=
  match v with SBool b => bool_text b | SInt z => print_int z | SString s => quote ++ s ++ quote end.
(** "\"" + key + "\": " *)
Definition key_text (k : str) : str := quote ++ k ++ quote ++ $": ".

(** The public methods *)
Inductive call :=
| AddElement (k : str) (v : scalar) | AddValue (v : scalar)
| AddObject (k : option str) (text : str)
| BeginArray (k : option str) | BeginObject (k : option str) | EndArray | EndObject.

(** if ( !mIsFirstElement ) mValue += ", " *)
Definition separator (y : style) (line : bool) (b : builder) : str :=
  if b_first b then [] else $", " ++ (if line then y_line y else []).
(** indent, StyledBuilder.os:162-168; nothing in the others *)
Definition indentation (y : style) (level : Z) : str := concat (List.repeat (y_unit y) (Z.to_nat level)).
Definition opt_key (k : option str) : str := match k with Some k => key_text k | None => [] end.
Definition step (y : style) (b : builder) (c : call) : builder :=
  match c with
  (** addElement: Builder.os:8-33, StructuredBuilder.os:8-51, StyledBuilder.os:14-67 *)
  | AddElement k v => Builder false (b_value b ++ separator y true b ++ indentation y (b_level b) ++ key_text k ++ value_of v) (b_level b)
  (** addValue: Builder.os:35-60, StructuredBuilder.os:53-96, StyledBuilder.os:69-94 *)
  | AddValue v => Builder false (b_value b ++ separator y false b ++ value_of v) (b_level b)
  (** AddObject: StructuredBuilder.os:98-114 *)
  | AddObject k t => Builder false (b_value b ++ separator y true b ++ opt_key k ++ t) (b_level b)
  (** beginArray, beginObject: Builder.os:62-96, StructuredBuilder.os:116-150, StyledBuilder.os:96-142 *)
  | BeginArray k => Builder true (b_value b ++ separator y true b ++ indentation y (b_level b) ++ opt_key k ++ $"[" ++ y_line y) (b_level b + 1)
  | BeginObject k => Builder true (b_value b ++ separator y true b ++ indentation y (b_level b) ++ opt_key k ++ $"{" ++ y_line y) (b_level b + 1)
  (** endArray, endObject: Builder.os:98-106, StructuredBuilder.os:152-160, StyledBuilder.os:144-158 *)
  | EndArray => Builder false (b_value b ++ y_line y ++ indentation y (b_level b - 1) ++ $"]") (b_level b - 1)
  | EndObject => Builder false (b_value b ++ y_line y ++ indentation y (b_level b - 1) ++ $"}") (b_level b - 1)
  end.
Definition make (y : style) (l : list call) (b : builder) : builder := fold_left (step y) l b.
(** getString *)
Definition get_string (y : style) (b : builder) : str := y_front y ++ b_value b ++ y_back y.
