(** What an enumeration declaration means, independent of how it is read. *)
From Verif Require Import Base Text_Model Tok_Model Tok_Proofs.
From Coq Require Import Sorting.Sorted.

(** An entry as written: a name and possibly a decimal number. *)
Definition entry : Type := str * option str.
(** [toks] spells the entries with commas between them: positions and categories do not matter. *)
Inductive spells : list entry -> list token -> Prop :=
| spells_last e toks : spells_entry e toks -> spells [e] toks
| spells_more e es toks comma toks' :
    spells_entry e toks -> k_type comma = COMMA -> spells es toks' -> spells (e :: es) (toks ++ comma :: toks')
with spells_entry : entry -> list token -> Prop :=
| spells_plain n : k_type n = IDENTIFIER -> spells_entry (k_text n, None) [n]
| spells_value n a v :
    k_type n = IDENTIFIER -> k_type a = ASSIGN -> k_type v = CONST_INTEGER ->
    spells_entry (k_text n, Some (k_text v)) [n; a; v].

(** The number an entry stands for: the written one, else one more than the entry before. *)
Definition number (before : Z) (e : entry) : Z :=
  match snd e with Some d => string_to_int d | None => (before + 1)%Z end.
Fixpoint numbers (before : Z) (es : list entry) : list Z :=
  match es with [] => [] | e :: es' => number before e :: numbers (number before e) es' end.
(** The numbers strictly increase from [before] on. *)
Definition increasing (before : Z) (zs : list Z) : Prop := StronglySorted Z.lt (before :: zs).
(** A number is counted up only while an int64 can hold it. *)
Definition largest : Z := 9223372036854775807.
Fixpoint countable (before : Z) (es : list entry) : Prop :=
  match es with
  | [] => True
  | e :: es' => (snd e = None -> before <> largest) /\ countable (number before e) es'
  end.
