(** Model of three small libraries: the loggers of libLog, the scanner of FileReader, the powers of System.Math.
    Code: /repo/Projects/Library/libLog/Logger.os, FileLogger.os, StdOutLogger.os, Context.os, LibLog.os,
    /repo/Projects/Library/FileReader/Scanner.os, /repo/Projects/Library/System/Math/Functions.os (Slang programs, followed
    statement by statement), with the text methods of SysStr_Model, the files of File_Model and the integers of Value_Model.
    Not modelled: StdOutContext.write (a print statement per message), deleting contexts, the powers of float and double. *)
From Verif Require Import Base Text_Model Value_Model SysStr_Model File_Model.

(** ** libLog *)
(** The key of a logger cut or filled to its length: Logger.os:22-28, FileLogger.os:17-23 and 59-65, StdOutLogger.os:17-23. *)
Definition fit_key (key : str) (len : Z) : res str :=
  if (len =? 0)%Z then Ok key
  else
    let! k := (if (len <? str_len key)%Z
               then let! d := checked 32 (str_len key - len) in substr3 key d len
               else Ok key) in
    str_pad false k len ($" ").
(** mKey and mKeyLength, Logger.os:69-70; the context is the file the caller passes to [log_message]. *)
Record logger := Logger { lg_key : str; lg_len : Z }.
(** The constructors that take a key and a length: FileLogger.os:12-24 and 54-66, StdOutLogger.os:12-24. *)
Definition logger_new (key : str) (len : Z) : res logger := let! k := fit_key key len in Ok (Logger k len).
(** Logger.os:13-29, with a parent that is there; KeySeparator, LibLog.os:16, may be changed by the program. *)
Definition logger_child (sep : str) (parent : logger) (key : str) : res logger :=
  let! k := fit_key (trim_right ($" ") (lg_key parent) ++ sep ++ key) (lg_len parent) in Ok (Logger k (lg_len parent)).
(** debug, error, fatal, info, warning: Logger.os:43-63. *)
Inductive level := Debug | Error | Fatal | Info | Warning.
Definition tag (l : level) : str :=
  match l with
  | Debug => $"[DEBUG] [" | Error => $"[ERROR] [" | Fatal => $"[FATAL] [" | Info => $"[INFO ] [" | Warning => $"[WARN ] ["
  end.
Definition is_fatal (l : level) : bool := match l with Fatal => true | _ => false end.
(** FileContext.write, Context.os:20-22. The bool tells that FatalError is thrown after writing, Logger.os:54. *)
Definition log_message (o : file) (w : world) (lg : logger) (l : level) (msg : str) : res (bool * world) :=
  let! p := file_write_string o w (tag l ++ lg_key lg ++ $"]   " ++ msg) in Ok (is_fatal l, snd p).
(** FileContext's constructor, Context.os:10-12. *)
Definition context_new (w : world) (name : str) (append : bool) : res (file * world) :=
  file_new w name (if append then WriteUpdate else WriteOnly).
(** A program that logs through several loggers with one context, and catches the errors. *)
Fixpoint log_all (o : file) (w : world) (l : list (logger * level * str)) : res (list bool * world) :=
  match l with
  | [] => Ok ([], w)
  | (lg, lv, msg) :: l' =>
      let! p := log_message o w lg lv msg in
      let! q := log_all o (snd p) l' in Ok (fst p :: fst q, snd q)
  end.

(** ** FileReader *)
(** mFile and mText, Scanner.os:49-50. *)
Record scanner := Scanner { sc_file : file; sc_text : str }.
(** readFile, Scanner.os:41-47: an empty text counts as false. *)
Definition read_file (s : scanner) (w : world) : res (scanner * world) :=
  match sc_text s with
  | _ :: _ => Ok (s, w)
  | [] => let! p := file_read_string (sc_file s) w (file_size (sc_file s)) in Ok (Scanner (sc_file s) (fst p), snd p)
  end.
(** Constructor, Scanner.os:12-16. *)
Definition scanner_new (w : world) (name : str) : res (scanner * world) :=
  let! p := file_new w name ReadOnly in read_file (Scanner (fst p) []) (snd p).
(** reset, Scanner.os:34-39. *)
Definition scanner_reset (s : scanner) (w : world) : res (scanner * world) :=
  let! p := file_rewind (sc_file s) w in read_file (Scanner (sc_file s) []) (snd p).

(** ** System.Math *)
(** power(int value), Functions.os:37-39. *)
Definition square (value : Z) : res Z := int_op W32 OMul value value.
(** power(int value, int exp), Functions.os:41-50; the loop needs fuel. *)
Fixpoint power_loop (fuel : nat) (value result exp : Z) : res Z :=
  match fuel with
  | O => Fuel
  | S fuel' =>
      if (1 <? exp)%Z then
        let! r := int_op W32 OMul result value in
        let! e := int_op W32 OSub exp 1 in power_loop fuel' value r e
      else Ok result
  end.
Definition power (fuel : nat) (value exp : Z) : res Z := power_loop fuel value value exp.
(** sqr(int value), Functions.os:60-62. *)
Definition sqr (fuel : nat) (value : Z) : res Z := power fuel value 2.
