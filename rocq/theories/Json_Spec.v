(** Specification for the JSON library (C63). *)
From Verif Require Import Base Text_Model Json_Model.

(** What a text between quotes stands for: a backslash is dropped and the character behind it kept; a quote of its own or a
    backslash at the end does not belong there. *)
Fixpoint unescape (s : str) : option str :=
  match s with
  | [] => Some []
  | c :: r =>
      if bool_decide (c = chr 34) then None
      else if bool_decide (c = chr 92) then match r with [] => None | d :: r' => option_map (cons d) (unescape r') end
      else option_map (cons c) (unescape r)
  end.
Definition plain (s : str) : Prop := chr 34 ∉ s /\ chr 92 ∉ s.
(** A number text the tokenizer can recognise. *)
Definition number_text (t : str) : Prop :=
  exists c r, t = c :: r /\ c <> chr 101 /\ Forall (fun x => x ∈ $"0123456789.-+e") t.
Definition white (t : str) : Prop := Forall (fun x => x ∈ [chr 32; chr 9; chr 10; chr 13]) t.

(** Documents whose texts and numbers can be recognised, and where no array of two or more elements starts with false. *)
Fixpoint readable (v : json) : Prop :=
  match v with
  | JNull | JBool _ => True
  | JNum t => number_text t
  | JStr s => is_Some (unescape s)
  | JArr l => (forall x r, l <> JBool false :: x :: r) /\ (fix all l := match l with [] => True | x :: r => readable x /\ all r end) l
  | JObj l => (fix all l := match l with [] => True | (k, x) :: r => (is_Some (unescape k) /\ readable x) /\ all r end) l
  end.
(** What comes back: every number as the string of its text, every string unescaped. *)
Definition plain_of (s : str) : str := default [] (unescape s).
Fixpoint as_read (v : json) : json :=
  match v with
  | JNum t => JStr t
  | JStr s => JStr (plain_of s)
  | JArr l => JArr (map as_read l)
  | JObj l => JObj (map (fun p => (plain_of (fst p), as_read (snd p))) l)
  | _ => v
  end.
(** Documents that come back unchanged: without numbers, quotes and backslashes. *)
Fixpoint faithful (v : json) : Prop :=
  match v with
  | JNull | JBool _ => True
  | JNum _ => False
  | JStr s => plain s
  | JArr l => (forall x r, l <> JBool false :: x :: r) /\ (fix all l := match l with [] => True | x :: r => faithful x /\ all r end) l
  | JObj l => (fix all l := match l with [] => True | (k, x) :: r => (plain k /\ faithful x) /\ all r end) l
  end.
Definition container (v : json) : Prop := match v with JArr _ | JObj _ => True | _ => False end.
(** Reading ends with this document, whatever the number of steps allowed beyond some bound. *)
Definition reads (text : str) (v : json) : Prop := exists n0, forall n, (n0 <= n)%nat -> parse n text = Ok (Some v).
