(** What reading a CSV file means. *)
From Verif Require Import Base SysStr_Spec File_Model.

(** Lines, each with its line break. *)
Definition text_of_lines (ls : list str) : str := concat (map (fun l => l ++ [LF]) ls).
(** A table written as CSV: fields with commas between them, one line per row. *)
Definition text_of_table (t : list (list str)) : str := text_of_lines (map (join $",") t).
(** Fields that need no quoting. *)
Definition plain (field : str) : Prop := ","%char ∉ field /\ LF ∉ field /\ NUL ∉ field.
