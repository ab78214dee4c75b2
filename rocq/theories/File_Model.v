(** Model of files: the stdio extension (/repo/Projects/Extensions/LIBC/stdio/*.h, stdio.cpp) and the library object built
    on it (/repo/Projects/Library/System/IO/File.os).
    The C library below is modelled by streams over files: a stream is a place in a file, with the rules of C11 7.21 (what
    the standard leaves undefined is [UB]). Simplifications: what is written reaches the file at once (no buffer), there are
    no input or output errors besides using a stream in a direction it was not opened for, the standard streams are streams
    over three files of their own. [w_deny] holds the names the system refuses to open (directories, missing rights).
    Not modelled: remove, rename, tmpfile, tmpnam, ungetc, clearerr, ferror, rewind, perror, freadd, freadf, fwrited, fwritef. *)
From Verif Require Import Base Text_Model Value_Model.

(** ** Streams of the C library *)
(** What was done last with a stream: C11 7.21.5.3p7 forbids reading after writing, and writing after reading, without a
    seek or a flush in between. *)
Inductive last_op := LNone | LRead | LWrite.
(** FILE. *)
Record stream := Stream { sm_node : nat; sm_pos : nat; sm_rd : bool; sm_wr : bool; sm_app : bool;
                          sm_open : bool; sm_eof : bool; sm_last : last_op }.
(** The system and the extension: names of files, contents, streams ever made, and stdio_t::FileHandles, stdio.hpp:60-62,
    from handle to FILE* ([None] is the null pointer). *)
Record world := World { w_names : gmap str nat; w_nodes : list str; w_streams : list stream;
                        w_handles : gmap Z (option nat); w_deny : str -> bool }.

Definition set_stream (w : world) (i : nat) (m : stream) : world :=
  World (w_names w) (w_nodes w) (<[i := m]> (w_streams w)) (w_handles w) (w_deny w).
Definition set_node (w : world) (i : nat) (f : str) : world :=
  World (w_names w) (<[i := f]> (w_nodes w)) (w_streams w) (w_handles w) (w_deny w).

Definition NUL : ascii := "000"%char.
Definition LF : ascii := "010"%char.
(** std::string::c_str read as a C string. *)
Fixpoint c_str (s : str) : str := match s with [] => [] | c :: s' => if ascii_dec c NUL then [] else c :: c_str s' end.

(** fread of [n] bytes, [n] > 0: nothing from a stream that is not open for reading or has already met the end. *)
Definition c_read (n : nat) (m : stream) (f : str) : res (str * stream) :=
  if negb (sm_rd m) then Ok ([], m)
  else match sm_last m with
       | LWrite => UB
       | _ =>
           if sm_eof m then Ok ([], m)
           else let bs := take n (drop (sm_pos m) f) in
                Ok (bs, Stream (sm_node m) (sm_pos m + length bs) (sm_rd m) (sm_wr m) (sm_app m) (sm_open m)
                               (length bs <? n) LRead)
       end.
(** Bytes written at a place; a hole is filled with zeros. *)
Definition splice (pos : nat) (bs f : str) : str :=
  match bs with
  | [] => f
  | _ => take pos (f ++ replicate (pos - length f) NUL) ++ bs ++ drop (pos + length bs) f
  end.
(** fwrite and fputs: whether they succeeded, the stream, the contents. *)
Definition c_write (bs : str) (m : stream) (f : str) : res (bool * stream * str) :=
  if negb (sm_wr m) then Ok (false, m, f)
  else match sm_last m, sm_eof m with
       | LRead, false => UB
       | _, _ =>
           let pos := if sm_app m then length f else sm_pos m in
           Ok (true, Stream (sm_node m) (pos + length bs) (sm_rd m) (sm_wr m) (sm_app m) (sm_open m) (sm_eof m) LWrite,
               splice pos bs f)
       end.
(** fseek; SEEK_SET, SEEK_CUR and SEEK_END are 0, 1 and 2. *)
Definition c_seek (off origin : Z) (m : stream) (f : str) : option stream :=
  let from := if (origin =? 0)%Z then Some 0%Z
              else if (origin =? 1)%Z then Some (Z.of_nat (sm_pos m))
              else if (origin =? 2)%Z then Some (Z.of_nat (length f)) else None in
  match from with
  | None => None
  | Some b => if (b + off <? 0)%Z then None
              else Some (Stream (sm_node m) (Z.to_nat (b + off)) (sm_rd m) (sm_wr m) (sm_app m) (sm_open m) false LNone)
  end.
(** fopen's mode as glibc reads it: the first character decides, of the next six a plus and an x count and the others are
    skipped ([Some (kind, update, exclusive)]). *)
Inductive mkind := MRead | MWrite | MAppend.
Definition parse_mode (mode : str) : option (mkind * bool * bool) :=
  match c_str mode with
  | [] => None
  | c :: rest =>
      let has := fun x => existsb (fun d => if ascii_dec d x then true else false) (take 6 rest) in
      let k := if ascii_dec c "r"%char then Some MRead else if ascii_dec c "w"%char then Some MWrite
               else if ascii_dec c "a"%char then Some MAppend else None in
      match k with None => None | Some k => Some (k, has "+"%char, has "x"%char) end
  end.
Definition mode_stream (node : nat) (k : mkind) (update : bool) : stream :=
  Stream node 0 (match k with MRead => true | _ => update end) (match k with MRead => update | _ => true end)
         (match k with MAppend => true | _ => false end) true false LNone.

(** ** The extension methods *)
(** FOPEN::execute, fopen.h:50-57: the handle is the number of entries in the map; std::map::insert leaves an entry that is
    already there as it is. *)
Definition new_handle (w : world) (m : stream) : Z * world :=
  let h := Z.of_nat (size (w_handles w)) in
  let i := length (w_streams w) in
  (h, World (w_names w) (w_nodes w) (w_streams w ++ [m])
            (match w_handles w !! h with None => <[h := Some i]> (w_handles w) | Some _ => w_handles w end) (w_deny w)).
Definition fopen (w : world) (name mode : str) : Z * world :=
  let n := c_str name in
  match parse_mode mode with
  | None => (0%Z, w)
  | Some (k, update, excl) =>
      if w_deny w n || bool_decide (n = []) then (0%Z, w)
      else match w_names w !! n, k with
           | Some i, MRead => new_handle w (mode_stream i k update)
           | None, MRead => (0%Z, w)
           | Some i, _ =>
               if excl then (0%Z, w)
               else new_handle (match k with MWrite => set_node w i [] | _ => w end) (mode_stream i k update)
           | None, _ =>
               let i := length (w_nodes w) in
               new_handle (World (<[n := i]> (w_names w)) (w_nodes w ++ [[]]) (w_streams w) (w_handles w) (w_deny w))
                          (mode_stream i k update)
           end
  end.
(** The check every method starts with, e.g. fclose.h:45-47, and the use of the FILE*: the null pointer of handle 0
    (stdio.cpp:72) and a FILE that was closed are undefined behaviour. *)
Definition on_stream {A} (w : world) (h : Z) (k : nat -> stream -> str -> res A) : res A :=
  match w_handles w !! h with
  | None => Throw "RuntimeException"
  | Some None => UB
  | Some (Some i) =>
      match w_streams w !! i with
      | Some m => if sm_open m then match w_nodes w !! sm_node m with Some f => k i m f | None => UB end else UB
      | None => UB
      end
  end.
(** FCLOSE::execute, fclose.h:37-57: the entry stays in the map. *)
Definition fclose (w : world) (h : Z) : res (Z * world) :=
  on_stream w h (fun i m _ =>
    Ok (0%Z, set_stream w i (Stream (sm_node m) (sm_pos m) (sm_rd m) (sm_wr m) (sm_app m) false (sm_eof m) (sm_last m)))).
(** FEOF::execute, feof.h:36-51 (any non-zero number for yes; one here). *)
Definition feof (w : world) (h : Z) : res (Z * world) :=
  on_stream w h (fun _ m _ => Ok (if sm_eof m then 1%Z else 0%Z, w)).
(** FTELL::execute, ftell.h:45-65: the place cut to int32_t. *)
Definition ftell (w : world) (h : Z) : res (Z * world) :=
  on_stream w h (fun _ m _ => Ok (wrap 32 (Z.of_nat (sm_pos m)), w)).
(** FSEEK::execute, fseek.h:47-69. *)
Definition fseek (w : world) (h off origin : Z) : res (Z * world) :=
  on_stream w h (fun i m f =>
    match c_seek off origin m f with
    | None => Throw "RuntimeException"
    | Some m' => Ok (0%Z, set_stream w i m')
    end).
(** FFLUSH::execute, fflush.h:40-57: fflush of the null pointer is allowed, and flushes every stream. *)
Definition fflush (w : world) (h : Z) : res (Z * world) :=
  match w_handles w !! h with
  | Some None => Ok (0%Z, w)
  | _ => on_stream w h (fun i m _ =>
           Ok (0%Z, set_stream w i (Stream (sm_node m) (sm_pos m) (sm_rd m) (sm_wr m) (sm_app m) (sm_open m) (sm_eof m)
                                           (match sm_last m with LWrite => LNone | l => l end))))
  end.
(** FREADS::execute, fread.h:211-229: one byte after the other, [length] of them or, with -1, all. *)
Fixpoint reads_loop (fuel : nat) (m : stream) (f : str) (len : Z) (value : str) : res (str * stream) :=
  match fuel with
  | O => Fuel
  | S fuel' =>
      if (0 <? len)%Z || (len =? -1)%Z then
        let! p := c_read 1 m f in
        match fst p with
        | [] => Ok (value, snd p)
        | bs => reads_loop fuel' (snd p) f (if (0 <? len)%Z then len - 1 else len)%Z (value ++ bs)
        end
      else Ok (value, m)
  end.
Definition freads (w : world) (h len : Z) : res (str * world) :=
  on_stream w h (fun i m f =>
    let! p := reads_loop (S (S (length f))) m f len [] in Ok (fst p, set_stream w i (snd p))).
(** The four bytes of an int, and the int that [fread] makes of the bytes it got when the variable was 0 before
    (little endian, as on all platforms the project names). *)
Definition byte (z : Z) : ascii := ascii_of_nat (Z.to_nat (z mod 256)).
Definition int_bytes (z : Z) : str := [byte z; byte (z / 256); byte (z / 65536); byte (z / 16777216)].
Fixpoint bytes_value (bs : str) : Z :=
  match bs with [] => 0%Z | b :: bs' => (Z.of_nat (nat_of_ascii b) + 256 * bytes_value bs')%Z end.
(** FREADI::execute, fread.h:159-181: sizeof(int) elements of one byte; fread never returns -1. *)
Definition freadi (w : world) (h : Z) : res (Z * world) :=
  on_stream w h (fun i m f =>
    let! p := c_read 4 m f in Ok (wrap 32 (bytes_value (fst p)), set_stream w i (snd p))).
(** FREADB::execute, fread.h:45-67: a bool that holds a byte besides 0 and 1 is undefined behaviour. *)
Definition freadb (w : world) (h : Z) : res (bool * world) :=
  on_stream w h (fun i m f =>
    let! p := c_read 1 m f in
    match bytes_value (fst p) with
    | 0%Z => Ok (false, set_stream w i (snd p))
    | 1%Z => Ok (true, set_stream w i (snd p))
    | _ => UB
    end).
Definition wrote (w : world) (i : nat) (p : bool * stream * str) : world :=
  set_node (set_stream w i (p.1.2)) (sm_node (p.1.2)) (p.2).
(** FWRITEI::execute, fwrite.h:159-181, and FWRITEB::execute, 42-64: fwrite counts elements, 1 or, after an error, 0. *)
Definition fwrite_bytes (w : world) (h : Z) (bs : str) : res (Z * world) :=
  on_stream w h (fun i m f =>
    let! p := c_write bs m f in Ok (if p.1.1 then 1%Z else 0%Z, wrote w i p)).
Definition fwritei (w : world) (h v : Z) : res (Z * world) := fwrite_bytes w h (int_bytes v).
Definition fwriteb (w : world) (h : Z) (b : bool) : res (Z * world) := fwrite_bytes w h [byte (if b then 1 else 0)].
(** FWRITES::execute, fwrite.h:198-221: fputs of the text as a C string; glibc's fputs returns 1, or EOF after an error. *)
Definition fwrites (w : world) (h : Z) (s : str) : res (Z * world) :=
  on_stream w h (fun i m f =>
    let! p := c_write (c_str s) m f in
    if p.1.1 then Ok (1%Z, wrote w i p) else Throw "RuntimeException").
(** FPUTC::execute, fputc.h:42-58: the int as an unsigned char. *)
Definition fputc (w : world) (c h : Z) : res (Z * world) :=
  on_stream w h (fun i m f =>
    let! p := c_write [byte c] m f in Ok (if p.1.1 then c mod 256 else -1, wrote w i p)%Z).
(** FGETC::execute, fgetc.h:42-57: the number of the character in decimal digits, -1 at the end. *)
Definition fgetc (w : world) (h : Z) : res (str * world) :=
  on_stream w h (fun i m f =>
    let! p := c_read 1 m f in
    Ok (print_int (match fst p with [] => -1 | b :: _ => Z.of_nat (nat_of_ascii b) end)%Z, set_stream w i (snd p))).
(** The C function fgets with a buffer of [n] characters: [None] is the null pointer. *)
Fixpoint to_line_end (s : str) : str :=
  match s with [] => [] | c :: s' => if ascii_dec c LF then [c] else c :: to_line_end s' end.
Definition c_gets (n : nat) (m : stream) (f : str) : res (option str * stream) :=
  if n =? 1 then Ok (Some [], m)
  else if negb (sm_rd m) then Ok (None, m)
  else match sm_last m with
       | LWrite => UB
       | _ =>
           if sm_eof m then Ok (None, m)
           else
             let rest := drop (sm_pos m) f in
             let bs := to_line_end (take (n - 1) rest) in
             let full := (length bs =? n - 1) || existsb (fun c => if ascii_dec c LF then true else false) bs in
             Ok (match bs with [] => None | _ => Some bs end,
                 Stream (sm_node m) (sm_pos m + length bs) (sm_rd m) (sm_wr m) (sm_app m) (sm_open m) (negb full) LRead)
       end.
Definition READ_SIZE : Z := 1024.
(** FGETS::execute, fgets.h:56-69: [result] is what the caller got; every turn of the loop overwrites it. *)
Fixpoint gets_loop (fuel : nat) (m : stream) (f : str) (done size : Z) (result : option str) : res (option str * stream) :=
  match fuel with
  | O => Fuel
  | S fuel' =>
      if (done <? size)%Z then
        let n := Z.min (size - done) READ_SIZE in
        let! p := c_gets (Z.to_nat n) m f in
        gets_loop fuel' (snd p) f (done + n) size (match fst p with Some s => Some (c_str s) | None => result end)
      else Ok (result, m)
  end.
Definition fgets (w : world) (h size : Z) : res (option str * world) :=
  on_stream w h (fun i m f =>
    let! p := gets_loop (S (S (Z.to_nat (size / READ_SIZE)))) m f 0 size None in Ok (fst p, set_stream w i (snd p))).
(** stdio_t::initialize, stdio.cpp:71-75, over a system with the given files. *)
Definition start (names : gmap str nat) (nodes : list str) (deny : str -> bool) (input : str) : world :=
  let k := length nodes in
  World names (nodes ++ [input; []; []])
        [Stream k 0 true false false true false LNone; Stream (S k) 0 false true false true false LNone;
         Stream (S (S k)) 0 false true false true false LNone]
        (list_to_map [(0%Z, None); (1%Z, Some 0); (2%Z, Some 1); (3%Z, Some 2)]) deny.

(** ** File.os *)
Record file := File { fo_mode : str; fo_name : str; fo_handle : Z; fo_size : Z }.
Definition no_file : file := File [] [] 0 0.
Inductive access := Append | AppendUpdate | ReadOnly | ReadUpdate | ReadWrite | WriteOnly | WriteUpdate.
(** MapFileAccessModeToString, 162-174. *)
Definition access_mode (a : access) : str :=
  match a with
  | Append => $"a" | AppendUpdate => $"a+" | ReadOnly => $"r" | ReadUpdate => $"r+" | ReadWrite => $"rw"
  | WriteOnly => $"w" | WriteUpdate => $"w+"
  end.
(** Exists, 17-26. *)
Definition file_exists (w : world) (name : str) : res (bool * world) :=
  let p := fopen w name $"r" in
  if (fst p =? 0)%Z then Ok (false, snd p)
  else let! q := fclose (snd p) (fst p) in Ok (true, snd q).
(** open, 87-102: fseek and ftell come before the handle is looked at. *)
Definition file_open (o : file) (w : world) (name mode : str) : res (bool * file * world) :=
  if negb (fo_handle o =? 0)%Z then Throw "Exception"
  else
    let p := fopen w name mode in
    let! q := fseek (snd p) (fst p) 0 2 in
    let! t := ftell (snd q) (fst p) in
    let! q := fseek (snd t) (fst p) 0 0 in
    Ok (negb (fst p =? 0)%Z, File mode name (fst p) (fst t), snd q).
(** The constructors, 33-39. *)
Definition file_new (w : world) (name : str) (a : access) : res (file * world) :=
  let! r := file_open no_file w name (access_mode a) in Ok (r.1.2, r.2).
(** close, 51-61, and the destructor, 41-43; cleanup, 45-49, leaves the size. *)
Definition file_close (o : file) (w : world) : res (bool * file * world) :=
  if (fo_handle o =? 0)%Z then Ok (true, o, w)
  else let! q := fclose w (fo_handle o) in Ok ((fst q =? 0)%Z, File [] [] 0 (fo_size o), snd q).
(** getSize, isEOF, isOpen, 71-81. *)
Definition file_size (o : file) : Z := fo_size o.
Definition file_is_eof (o : file) (w : world) : res (bool * world) :=
  let! q := feof w (fo_handle o) in Ok (negb (fst q =? 0)%Z, snd q).
Definition file_is_open (o : file) : bool := negb (fo_handle o =? 0)%Z.
(** readBool, readChar, readInt, readString, 104-126. *)
Definition file_read_bool (o : file) (w : world) : res (bool * world) := freadb w (fo_handle o).
Definition file_read_char (o : file) (w : world) : res (str * world) := freads w (fo_handle o) 1.
Definition file_read_int (o : file) (w : world) : res (Z * world) := freadi w (fo_handle o).
Definition file_read_string (o : file) (w : world) (len : Z) : res (str * world) := freads w (fo_handle o) len.
(** rewind and seek, 128-134, with fseek's default origin SEEK_SET, fseek.h:42. *)
Definition file_seek (o : file) (w : world) (address : Z) : res (bool * world) :=
  let! q := fseek w (fo_handle o) address 0 in Ok ((fst q =? 0)%Z, snd q).
Definition file_rewind (o : file) (w : world) : res (bool * world) := file_seek o w 0.
(** write, 136-154. *)
Definition file_write_bool (o : file) (w : world) (b : bool) : res (bool * world) :=
  let! q := fwriteb w (fo_handle o) b in Ok ((fst q =? 0)%Z, snd q).
Definition file_write_int (o : file) (w : world) (v : Z) : res (bool * world) :=
  let! q := fwritei w (fo_handle o) v in Ok ((fst q =? 0)%Z, snd q).
Definition file_write_string (o : file) (w : world) (s : str) : res (bool * world) :=
  let! q := fwrites w (fo_handle o) s in Ok ((fst q =? 0)%Z, snd q).
