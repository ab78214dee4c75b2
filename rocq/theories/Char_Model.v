(** Model of System.Character and of System.IO.Logger.
    Code: /repo/Projects/Library/System/Character.os and System/IO/Logger.os (Slang programs, followed statement by statement),
    with strlen and substr as in SysStr_Model and the comparisons of texts as in Value_Model.
    Not modelled: the methods of Logger that print (IO/Logger.os:18-32), the typecast of a Character to int (C27). *)
From Verif Require Import Base Value_Model SysStr_Model.

(** A Character is its mValue, Character.os:90. The constructor: Character.os:11-18. *)
Definition char_new (value : str) (check : bool) : res str :=
  if check && negb (str_len value =? 1)%Z then Throw "InvalidLengthException" else substr3 value 0 1.
(** Copy, 23-25. *)
Definition char_copy (c : str) : res str := char_new c false.
(** operator=(string), 51-53. *)
Definition char_assign (c other : str) : res str := substr3 other 0 1.
(** operator==(string) and operator==(Character), 37-46. *)
Definition char_eq_text (c other : str) : res bool := let! o := substr3 other 0 1 in Ok (str_eqb c o).
Definition char_eq (c other : str) : bool := str_eqb c other.
(** operator<(string) and operator<(Character), 65-74. *)
Definition char_lt_text (c other : str) : res bool := let! o := substr3 other 0 1 in Ok (str_ltb c o).
Definition char_lt (c other : str) : bool := str_ltb c other.
(** operator!, 30-32: a text is true unless it is empty (C27) . *)
Definition char_not (c : str) : bool := match c with [] => true | _ => false end.

(** The key of a logger of System.IO, IO/Logger.os:8-15. *)
Definition io_key (key : str) (len : Z) : res str :=
  if (len =? 0)%Z then Ok key
  else let! start := checked 32 (str_len key - len) in substr3 key start len.
