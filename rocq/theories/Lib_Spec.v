(** What the theorems about the small libraries talk about. *)
From Verif Require Import Base File_Model Lib_Model.

Definition blank : ascii := ascii_of_nat 32.
(** What a key of a given width has to be: the key with blanks behind it, or its last characters. *)
Inductive keyed (key : str) (width : nat) : str -> Prop :=
| keyed_pad n : length key + n = width -> keyed key width (key ++ replicate n blank)
| keyed_cut front back : key = front ++ back -> length back = width -> keyed key width back.
(** A text that does not end with a blank. *)
Definition no_blank_end (s : str) : Prop := forall a, s <> a ++ [blank].
(** The keys from the first logger to a descendant, with the separator between them. *)
Fixpoint path (sep key : str) (keys : list str) : str :=
  match keys with [] => key | k :: ks => path sep (key ++ sep ++ k) ks end.
(** What a message looks like. *)
Definition shown (m : logger * level * str) : str :=
  match m with (lg, lv, msg) =>
    $"[" ++ match lv with Debug => $"DEBUG" | Error => $"ERROR" | Fatal => $"FATAL" | Info => $"INFO " | Warning => $"WARN " end
    ++ $"] [" ++ lg_key lg ++ $"]   " ++ msg end.
(** A message that a file takes as it is. *)
Definition loggable (m : logger * level * str) : Prop := NUL ∉ shown m /\ (Z.of_nat (length (shown m)) < 2 ^ 31)%Z.
(** Whether logging it ends with an exception. *)
Definition raises (m : logger * level * str) : bool := match m with (_, Fatal, _) => true | _ => false end.
(** The numbers an int holds. *)
Definition fits (z : Z) : Prop := (- 2 ^ 31 <= z < 2 ^ 31)%Z.
