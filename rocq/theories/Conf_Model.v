(** Model of configuration files and of the path functions.
    Code: /repo/Projects/Utils: Common/Configuration/Configurator.cpp, Parsers/LineParser.cpp, Parsers/Tokenizer.cpp,
    Tools/Files.cpp. *)
From Verif Require Import Base Text_Model.

(** ** Parsers/Tokenizer.cpp:18-72 *)
(** DELIMITERS, 18. *)
Definition conf_delim (c : ascii) : bool := mem c ($" ;" ++ [chr 9; chr 10; chr 13]).
Fixpoint skip_while (f : ascii -> bool) (s : str) : str :=
  match s with c :: s' => if f c then skip_while f s' else s | [] => [] end.
Fixpoint take_while (f : ascii -> bool) (s : str) : str :=
  match s with c :: s' => if f c then c :: take_while f s' else [] | [] => [] end.
(** nextToken, 49-72: the token and what remains behind it. The text and mOffset are kept as the part behind the
    offset. *)
Definition next_token (rest : str) : option (str * str) :=
  match skip_while conf_delim rest with
  | [] => None
  | s => Some (take_while (fun c => negb (conf_delim c)) s, skip_while (fun c => negb (conf_delim c)) s)
  end.

(** ** Parsers/LineParser.cpp:16-43 *)
(** The loop over the remaining tokens, 34-40; every round reads a token, so the length of the text is enough fuel. *)
Fixpoint line_value (fuel : nat) (value rest : str) : res str :=
  match fuel with
  | O => Fuel
  | S fuel' =>
      match next_token rest with
      | None => Ok value
      | Some (t, rest') => line_value fuel' ((if bool_decide (value = []) then value else value ++ $" ") ++ t) rest'
      end
  end.
(** A Value with name, type and value; None for the default Value, whose name is empty. *)
Definition parse_line (line : str) : res (option (str * (str * str))) :=
  match next_token line with
  | None => Ok None
  | Some (name, rest) =>
      match next_token rest with
      | None => Ok None
      | Some (type, rest') =>
          let! v := line_value (S (length rest')) [] rest' in Ok (Some (name, (type, v)))
      end
  end.

(** ** Common/Configuration/Configurator.cpp *)
(** The lines of load, 105-114: [line] is the part read since the last line end; what follows the last line end is
    dropped. *)
Fixpoint conf_lines (line : str) (data : str) : list str :=
  match data with
  | [] => []
  | c :: data' => if bool_decide (c = chr 10) then line :: conf_lines [] data' else conf_lines (line ++ [c]) data'
  end.
(** mValues, a std::map: kept sorted by key, one entry per key. *)
Fixpoint map_set (k : str) (v : str * str) (m : list (str * (str * str))) : list (str * (str * str)) :=
  match m with
  | [] => [(k, v)]
  | (k', v') :: m' =>
      if str_ltb k k' then (k, v) :: m
      else if str_eqb k k' then (k, v) :: m'
      else (k', v') :: map_set k v m'
  end.
(** split, 122-133. *)
Fixpoint conf_split (m : list (str * (str * str))) (lines : list str) : res (list (str * (str * str))) :=
  match lines with
  | [] => Ok m
  | l :: lines' =>
      let! o := parse_line l in
      match o with
      | Some (n, v) => if bool_decide (n = []) then conf_split m lines' else conf_split (map_set n v m) lines'
      | None => conf_split m lines'
      end
  end.
(** mLines, mValues and mSuccess. *)
Record conf := Conf { c_lines : list str; c_values : list (str * (str * str)); c_success : bool }.
Definition conf_init : conf := Conf [] [] false.
(** unload, 140-147. *)
Definition conf_unload (s : conf) : conf := Conf [] [] false.
(** load, 84-120. [file] is the content of the file, None if it does not exist.
    Simplified: the file name, the home path and the stream are not modelled. *)
Definition conf_load (file : option str) (s : conf) : res conf :=
  let s := conf_unload s in
  match file with
  | None => Ok s
  | Some [] => Ok s
  | Some data =>
      let lines := c_lines s ++ conf_lines [] data in
      let! m := conf_split [] lines in
      Ok (Conf lines m true)
  end.
(** The member name of getValue and isMember, 48-51, 70-73. *)
Definition member_name (key : str) (idx : Z) : str :=
  if (idx =? -1)%Z then key else key ++ $":" ++ print_int idx.
Fixpoint map_find (k : str) (m : list (str * (str * str))) : option (str * str) :=
  match m with [] => None | (k', v) :: m' => if str_eqb k' k then Some v else map_find k m' end.
(** getValue, 46-61 and 63-66: type and value, None for the empty Value. *)
Definition get_value (s : conf) (key : str) (idx : Z) : option (str * str) := map_find (member_name key idx) (c_values s).
Definition get_member (s : conf) (parent : str) (idx : Z) (key : str) : option (str * str) :=
  get_value s (parent ++ $":" ++ print_int idx ++ $"." ++ key) (-1).
(** isMember, 68-82. *)
Definition is_member (s : conf) (key : str) (idx : Z) : bool :=
  existsb (fun e => str_eqb (fst e) (member_name key idx)) (c_values s).

(** ** Tools/Files.cpp *)
(** std::string::find_last_of: the part before the last such character and the part behind it. *)
Fixpoint split_last (f : ascii -> bool) (s : str) : option (str * ascii * str) :=
  match s with
  | [] => None
  | c :: s' =>
      match split_last f s' with
      | Some (a, x, b) => Some (c :: a, x, b)
      | None => if f c then Some ([], c, s') else None
      end
  end.
Definition is_dot (c : ascii) : bool := bool_decide (c = chr 46).
Definition is_separator (c : ascii) : bool := mem c [chr 92; chr 47].
(** ExtractFileExt, 51-63. *)
Definition extract_ext (s : str) : str :=
  match split_last is_dot s with Some (_, _, b) => b | None => [] end.
(** ExtractFilename, 65-77. *)
Definition extract_filename (s : str) : str :=
  match split_last is_separator s with Some (_, _, b) => b | None => s end.
(** ExtractPathname, 79-91. *)
Definition extract_pathname (s : str) : str :=
  match split_last is_separator s with Some (a, x, _) => a ++ [x] | None => s end.
(** RemoveFileExt, 114-126. *)
Definition remove_ext (s : str) : str :=
  match extract_ext s with
  | [] => s
  | e => take (length s - length e - 1) s
  end.
(** BuildPath, 44-49, without GetFullname, which asks the file system. *)
Definition build_path (base file : str) : str :=
  base ++ $"/" ++ map (fun c => if is_dot c then chr 47 else c) file.
