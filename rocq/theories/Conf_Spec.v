(** What configuration files and paths mean. *)
From Verif Require Import Base Text_Model.

(** ** Lines and words *)
(** Blank, tab, line feed, carriage return and semicolon separate words. *)
Definition separators : str := $" ;" ++ [chr 9; chr 10; chr 13].
(** The words of a line: maximal runs of other characters. *)
Inductive words : str -> list str -> Prop :=
| words_none s : Forall (fun c => c ∈ separators) s -> words s []
| words_more d w rest ws :
    Forall (fun c => c ∈ separators) d -> w <> [] -> Forall (fun c => c ∉ separators) w ->
    match rest with [] => True | c :: _ => c ∈ separators end -> words rest ws ->
    words (d ++ w ++ rest) (w :: ws).
(** Words with a blank between them. *)
Fixpoint joined (ws : list str) : str :=
  match ws with [] => [] | [w] => w | w :: ws' => w ++ $" " ++ joined ws' end.
(** A line sets a key when it has at least two words: the key, a type and the words of the value. *)
Definition sets (line k ty v : str) : Prop := exists ws, words line (k :: ty :: ws) /\ v = joined ws.

(** The lines of a text, each ended by a line feed; the rest behind the last line feed is no line. *)
Definition ended (ls : list str) : str := concat (map (fun l => l ++ [chr 10]) ls).
Definition has_lines (data : str) (ls : list str) : Prop :=
  exists rest, data = ended ls ++ rest /\ chr 10 ∉ rest /\ Forall (fun l => chr 10 ∉ l) ls.

(** The last line that sets a key decides. *)
Definition last_setting (ls : list str) (k ty v : str) : Prop :=
  exists before line after, ls = before ++ line :: after /\ sets line k ty v /\
    forall l, l ∈ after -> forall ty' v', ~ sets l k ty' v'.

(** ** Paths *)
Definition has_separator (p : str) : Prop := chr 92 ∈ p \/ chr 47 ∈ p.
