(** Model of the CSV reader: /repo/Projects/Library/libCSVReader/CSVReader.os, Row.os and Settings.os (Slang programs,
    followed statement by statement), over the files of File_Model and the iterators of SysStr_Model.
    A Vector is the list of its elements (Library/System/Collections/Vector.os; see C49). *)
From Verif Require Import Base Text_Model Value_Model SysStr_Model File_Model.

(** Settings.os:5, and LINEBREAK, Extensions/System/Strings/StringsExtension.cpp, on Unix. *)
Definition SEPARATOR : str := $",".
Definition LINEBREAK : str := [LF].

Definition row := list str.
(** The members mData and mFilename, CSVReader.os:100-102; mColumnTitles is never read. *)
Record reader := Reader { rd_data : list row; rd_name : str }.

(** Lines 75-85: the columns of a line. *)
Definition parse_row (line : str) : res row :=
  siter_all (S (S (S (length line)))) (ss_new line) (siter_new SEPARATOR).
(** parseString, 67-98; [index] is the place of the CharacterIterator (CharacterIterator.os:48-64). *)
Fixpoint parse_loop (fuel : nat) (content : str) (header_only : bool) (index : Z) (line : str) (data : list row)
  : res (list row) :=
  match fuel with
  | O => Fuel
  | S fuel' =>
      if (index <? str_len content)%Z then
        if (str_len content <? index + 1)%Z then Throw "OutOfBoundsException"
        else
          let! char := substr3 content (index + 1) 1 in
          if str_eqb char LINEBREAK then
            let! r := parse_row line in
            if header_only then Ok (data ++ [r])
            else parse_loop fuel' content header_only (index + 1) [] (data ++ [r])
          else parse_loop fuel' content header_only (index + 1) (line ++ char) data
      else Ok data
  end.
Definition parse_string (content : str) (header_only : bool) (data : list row) : res (list row) :=
  parse_loop (S (S (length content))) content header_only (-1) [] data.
(** open, 50-61; the file is closed when it goes out of scope (File.os:41-43). *)
Definition csv_open (rd : reader) (w : world) (filename : str) (header_only : bool) : res (reader * world) :=
  let name := if string_to_bool filename then filename else rd_name rd in
  let! p := file_new w filename ReadOnly in
  if negb (file_is_open (fst p)) then Throw "Failed to open file"
  else
    let! q := file_read_string (fst p) (snd p) (file_size (fst p)) in
    let! data := parse_string (fst q) header_only (rd_data rd) in
    let! c := file_close (fst p) (snd q) in
    Ok (Reader data name, c.2).
(** Constructor, 15-22. *)
Definition csv_new (w : world) (filename : str) (column_titles : bool) : res (reader * world) :=
  if string_to_bool filename then csv_open (Reader [] []) w filename column_titles else Ok (Reader [] [], w).
(** at and the index operator, 26-32, with Vector.at; size, 34-36; header, 46-48. *)
Definition csv_at (rd : reader) (i : Z) : res row :=
  if (i <? 0)%Z || (Z.of_nat (length (rd_data rd)) <=? i)%Z then Throw "OutOfBoundsException"
  else match rd_data rd !! Z.to_nat i with Some r => Ok r | None => UB end.
Definition csv_size (rd : reader) : Z := Z.of_nat (length (rd_data rd)).
Definition csv_header (rd : reader) : res row := csv_at rd 0.
(** Row.getIdx, Row.os:13-21. *)
Fixpoint get_idx_from (idx : Z) (r : row) (column : str) : Z :=
  match r with [] => (-1)%Z | c :: r' => if str_eqb c column then idx else get_idx_from (idx + 1) r' column end.
Definition get_idx (r : row) (column : str) : Z := get_idx_from 0 r column.
(** Row's string operator, Row.os:23-35. *)
Fixpoint row_text_from (result : str) (r : row) : str :=
  match r with
  | [] => result
  | e :: r' => row_text_from ((if string_to_bool result then result ++ $" | " else result) ++ e) r'
  end.
Definition row_text (r : row) : str := row_text_from [] r.
