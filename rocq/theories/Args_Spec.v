(** Specification of the command line, independent of the code: how options are written, and how parameters are written in the
    text a script gets. *)
From Verif Require Import Base Text_Model Value_Spec.

(** ** Options of the interpreter *)
Definition switches : list str :=
  [$"--debug"; $"-h"; $"--help"; $"-q"; $"--quiet"; $"--skip-sanitycheck"; $"--syntax"; $"--tokens"; $"-v"; $"--verbose"; $"--version"].
(** Options in front of the script: switches, library folders and requests for the specification. *)
Inductive options : list str -> Prop :=
| options_none : options []
| options_switch s l : s ∈ switches -> options l -> options (s :: l)
| options_library w d l : w ∈ [$"-l"; $"--library"] -> options l -> options (w :: d :: l)
| options_spec q l : options l -> options ($"--spec" :: q :: l).
(** Options that do not keep the script from running *)
Definition harmless : list str := [$"-q"; $"--quiet"; $"--skip-sanitycheck"; $"-v"; $"--verbose"].
Inductive run_options : list str -> Prop :=
| run_none : run_options []
| run_switch s l : s ∈ harmless -> run_options l -> run_options (s :: l)
| run_library w d l : w ∈ [$"-l"; $"--library"] -> run_options l -> run_options (w :: d :: l).
(** The script: behind -f or --file, or a word that is no option. *)
Inductive script_named : list str -> str -> Prop :=
| named_by_option w f : w ∈ [$"-f"; $"--file"] -> script_named [w; f] f
| named_alone f : f ∉ switches -> f ∉ [$"-l"; $"--library"; $"-f"; $"--file"; $"--spec"] -> script_named [f] f.

(** ** Parameters in a text *)
Definition blank : ascii := chr 32.
Definition line_end : ascii := chr 10.
Definition equals : ascii := chr 61.
Definition quote : ascii := chr 34.
Definition backslash : ascii := chr 92.

(** In quotation marks everything stands for itself but the quotation mark and the backslash; behind a backslash every
    character does. *)
Inductive qchar := QPlain (c : ascii) | QEscaped (c : ascii).
Inductive piece := Plain (c : ascii) | Escaped (c : ascii) | Quoted (l : list qchar).
(** A word: a key, and perhaps a value behind an equals sign. *)
Record word := Word { w_key : list piece; w_value : option (list piece) }.

Definition qchar_ok (q : qchar) : Prop := match q with QPlain c => c ∉ [quote; backslash] | QEscaped _ => True end.
Definition piece_ok (p : piece) : Prop :=
  match p with
  | Plain c => c ∉ [blank; line_end; equals; quote; backslash]
  | Escaped c => c ∉ [blank; line_end; equals]
  | Quoted l => Forall qchar_ok l
  end.
Definition word_ok (w : word) : Prop :=
  Forall piece_ok (w_key w) /\ match w_value w with Some v => Forall piece_ok v | None => True end.

(** How it is written *)
Definition write_qchar (q : qchar) : str := match q with QPlain c => [c] | QEscaped c => [backslash; c] end.
Definition write_piece (p : piece) : str :=
  match p with Plain c => [c] | Escaped c => [backslash; c] | Quoted l => quote :: concat (map write_qchar l) ++ [quote] end.
Definition write_pieces (l : list piece) : str := concat (map write_piece l).
Definition write_word (w : word) : str :=
  write_pieces (w_key w) ++ match w_value w with Some v => equals :: write_pieces v | None => [] end.
(** The first word, and the others with the blank or line end in front of them *)
Definition write_words (w : word) (ws : list (ascii * word)) : str :=
  write_word w ++ concat (map (fun q => fst q :: write_word (snd q)) ws).

(** What it stands for *)
Definition qchar_text (q : qchar) : ascii := match q with QPlain c | QEscaped c => c end.
Definition piece_text (p : piece) : str := match p with Plain c | Escaped c => [c] | Quoted l => map qchar_text l end.
Definition pieces_text (l : list piece) : str := concat (map piece_text l).
(** One or two dashes in front of a key do not belong to it. *)
Definition undashed (k : str) : str :=
  match k with
  | c :: k' => if bool_decide (c = chr 45) then match k' with d :: k'' => if bool_decide (d = chr 45) then k'' else k' | [] => [] end else k
  | [] => []
  end.
Definition word_means (w : word) : str * str :=
  (undashed (pieces_text (w_key w)), match w_value w with Some v => pieces_text v | None => [] end).
(** A word without value that counts as a false text is lost, unless it is the last one. *)
Definition lost (w : word) : Prop := w_value w = None /\ falsy (pieces_text (w_key w)).
Inductive words_mean : list word -> list (str * str) -> Prop :=
| wm_last w : words_mean [w] [word_means w]
| wm_kept w ws l : ws <> [] -> ~ lost w -> words_mean ws l -> words_mean (w :: ws) (word_means w :: l)
| wm_lost w ws l : ws <> [] -> lost w -> words_mean ws l -> words_mean (w :: ws) l.

(** Parameters as a careful user writes them: everything in quotation marks. *)
Definition quoted (s : str) : list piece :=
  [Quoted (map (fun c => if bool_decide (c ∈ [quote; backslash]) then QEscaped c else QPlain c) s)].
Definition careful (p : str * str) : word := Word (quoted (fst p)) (Some (quoted (snd p))).

(** Arguments without special characters: key, or key=value. *)
Definition simple (s : str) : Prop := Forall (fun c => c ∉ [blank; line_end; equals; quote; backslash]) s.
Inductive argument : str -> str * str -> Prop :=
| arg_key k : simple k -> ~ falsy k -> argument k (undashed k, [])
| arg_value k v : simple k -> simple v -> argument (k ++ equals :: v) (undashed k, v).

(** The directory of a path: up to the last slash. *)
Definition directory_of (path d : str) : Prop :=
  exists rest, path = d ++ rest /\ chr 47 ∉ rest /\ (d = [] \/ exists d', d = d' ++ [chr 47]).
