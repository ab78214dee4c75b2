(** What the theorems about files talk about. *)
From Verif Require Import Base File_Model.

(** The text of a file, if there is one of that name. *)
Definition content (w : world) (name : str) : option str :=
  match w_names w !! name with Some i => w_nodes w !! i | None => None end.
(** A name that the system can open: no zero byte in it, not empty, not refused. *)
Definition usable (w : world) (name : str) : Prop := NUL ∉ name /\ name <> [] /\ w_deny w name = false.

(** Calls of a program and what they answer ([AFailed] is an exception). *)
Inductive call :=
| COpen (name mode : str) | CClose (h : Z) | CEof (h : Z) | CTell (h : Z) | CSeek (h off origin : Z) | CFlush (h : Z)
| CReads (h len : Z) | CReadi (h : Z) | CReadb (h : Z) | CWritei (h v : Z) | CWriteb (h : Z) (b : bool)
| CWrites (h : Z) (s : str) | CPutc (c h : Z) | CGetc (h : Z) | CGets (h size : Z).
Inductive answer := ANum (z : Z) | AText (s : str) | ABool (b : bool) | ANothing | AFailed.
(** The handle a call works on. *)
Definition handle_of (c : call) : option Z :=
  match c with
  | COpen _ _ => None
  | CClose h | CEof h | CTell h | CSeek h _ _ | CFlush h | CReads h _ | CReadi h | CReadb h | CWritei h _ | CWriteb h _
  | CWrites h _ | CPutc _ h | CGetc h | CGets h _ => Some h
  end.
Definition as_num (r : res (Z * world)) : res (answer * world) := let! p := r in Ok (ANum (fst p), snd p).
Definition as_text (r : res (str * world)) : res (answer * world) := let! p := r in Ok (AText (fst p), snd p).
Definition perform (w : world) (c : call) : res (answer * world) :=
  match c with
  | COpen n m => as_num (Ok (fopen w n m))
  | CClose h => as_num (fclose w h)
  | CEof h => as_num (feof w h)
  | CTell h => as_num (ftell w h)
  | CSeek h o g => as_num (fseek w h o g)
  | CFlush h => as_num (fflush w h)
  | CReads h n => as_text (freads w h n)
  | CReadi h => as_num (freadi w h)
  | CReadb h => let! p := freadb w h in Ok (ABool (fst p), snd p)
  | CWritei h v => as_num (fwritei w h v)
  | CWriteb h b => as_num (fwriteb w h b)
  | CWrites h s => as_num (fwrites w h s)
  | CPutc c h => as_num (fputc w c h)
  | CGetc h => as_text (fgetc w h)
  | CGets h n => let! p := fgets w h n in Ok (match fst p with Some s => AText s | None => ANothing end, snd p)
  end.
(** A program's calls, with what they answered; after an exception it may go on. *)
Inductive runs : world -> list (call * answer) -> world -> Prop :=
| runs_nil w : runs w [] w
| runs_call w c a w1 l w2 : perform w c = Ok (a, w1) -> runs w1 l w2 -> runs w ((c, a) :: l) w2
| runs_exn w c t l w2 : perform w c = Throw t -> runs w l w2 -> runs w ((c, AFailed) :: l) w2.
(** Files to begin with: every name stands for a file of its own. *)
Definition proper (names : gmap str nat) (nodes : list str) : Prop :=
  (forall n i, names !! n = Some i -> i < length nodes) /\
  (forall n n' i, names !! n = Some i -> names !! n' = Some i -> n = n').
(** A state that a program can meet. *)
Definition reached (w : world) : Prop :=
  exists names nodes deny input l, proper names nodes /\ runs (start names nodes deny input) l w.

(** The handles that opening files answered, and the handles that were closed. *)
Definition given (l : list (call * answer)) : list Z :=
  flat_map (fun p => match p with (COpen _ _, ANum h) => if (h =? 0)%Z then [] else [h] | _ => [] end) l.
Definition closed (l : list (call * answer)) : list Z :=
  flat_map (fun p => match p with (CClose h, ANum _) => [h] | _ => [] end) l.
(** The text of the mode a call opens a file with has a plus in it. *)
Definition opens_update (p : call * answer) : Prop := exists n m a, p = (COpen n m, a) /\ "+"%char ∈ m.
(** A call opens the file [name] for more than reading. *)
Definition opens_to_write (name : str) (p : call * answer) : Prop :=
  exists n m a, p = (COpen n m, a) /\ c_str n = name /\ (hd_error m <> Some "r"%char \/ "+"%char ∈ m).

(** Things a program writes to a file. *)
Inductive item := IInt (z : Z) | IBool (b : bool) | IText (s : str).
Definition fit (it : item) : Prop :=
  match it with
  | IInt z => (- 2 ^ 31 <= z < 2 ^ 31)%Z
  | IBool _ => True
  | IText s => NUL ∉ s /\ (Z.of_nat (length s) < 2 ^ 31)%Z
  end.
Definition put (o : file) (w : world) (it : item) : res world :=
  match it with
  | IInt z => let! p := file_write_int o w z in Ok (snd p)
  | IBool b => let! p := file_write_bool o w b in Ok (snd p)
  | IText s => let! p := file_write_string o w s in Ok (snd p)
  end.
Fixpoint put_all (o : file) (w : world) (l : list item) : res world :=
  match l with [] => Ok w | it :: l' => let! w1 := put o w it in put_all o w1 l' end.
(** Reading things back: the kinds, and the lengths of the texts, are known. *)
Definition get (o : file) (w : world) (it : item) : res (item * world) :=
  match it with
  | IInt _ => let! p := file_read_int o w in Ok (IInt (fst p), snd p)
  | IBool _ => let! p := file_read_bool o w in Ok (IBool (fst p), snd p)
  | IText s => let! p := file_read_string o w (Z.of_nat (length s)) in Ok (IText (fst p), snd p)
  end.
Fixpoint get_all (o : file) (w : world) (l : list item) : res (list item * world) :=
  match l with
  | [] => Ok ([], w)
  | it :: l' => let! p := get o w it in let! q := get_all o (snd p) l' in Ok (fst p :: fst q, snd q)
  end.
