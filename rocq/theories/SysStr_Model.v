(** Model of the library string.
    Code: /repo/Projects/Library/System/String.os, StringIterator.os, CharacterIterator.os (Slang programs, followed
    statement by statement) and the extension methods they call, /repo/Projects/Extensions/System/Strings/SubStr.h, StrFind.h,
    StrLTrim.h, StrRTrim.h, StrLPad.h, StrRPad.h, and /repo/Projects/Extensions/LIBC/cstring/strlen.h.
    An exception of the C++ library inside an extension method becomes a Slang exception
    (/repo/Projects/Core/Core/AST/TreeInterpreter.cpp:306-318). *)
From Verif Require Import Base Text_Model Value_Model.

(** ** Extension methods *)
(** strlen.h:39-50: the size cut to int32_t. *)
Definition str_len (s : str) : Z := wrap 32 (Z.of_nat (length s)).
(** Conversion of an int64_t to unsigned long. *)
Definition ulong (z : Z) : Z := (z mod 2 ^ 64)%Z.
(** std::string::substr: beyond the end it throws. Texts are shorter than 2^64. *)
Definition cpp_substr (s : str) (start n : Z) : res str :=
  if (Z.of_nat (length s) <? start)%Z then Throw "out_of_range"
  else Ok (take (Z.to_nat (Z.min n (Z.of_nat (length s)))) (drop (Z.to_nat start) s)).
(** SubStr.h:39-60; without a length the rest of the text is meant (std::string::npos). *)
Definition substr2 (s : str) (start : Z) : res str := cpp_substr s (ulong start) (Z.of_nat (length s)).
Definition substr3 (s : str) (start n : Z) : res str := cpp_substr s (ulong start) (ulong n).
(** Is [t] at the front of [s]? *)
Fixpoint is_prefix (t s : str) : bool :=
  match t, s with
  | [], _ => true
  | c :: t', d :: s' => bool_decide (c = d) && is_prefix t' s'
  | _ :: _, [] => false
  end.
(** std::string::find: the first place at or behind [pos], counted from the front of [s]. *)
Fixpoint find_from (t : str) (i : Z) (s : str) : option Z :=
  if is_prefix t s then Some i
  else match s with [] => None | _ :: s' => find_from t (i + 1) s' end.
Definition cpp_find (s t : str) (pos : Z) : Z :=
  if (Z.of_nat (length s) <? pos)%Z then 2 ^ 64 - 1
  else match find_from t pos (drop (Z.to_nat pos) s) with Some i => i | None => 2 ^ 64 - 1 end.
(** StrFind.h:39-52: the result cut to int32_t. *)
Definition str_find (s t : str) (pos : Z) : Z := wrap 32 (cpp_find s t (ulong pos)).
(** StrLPad.h:39-63 and StrRPad.h:39-63; the length is a size_t, a text cannot be longer than 2^63 - 1. *)
Definition str_pad (left : bool) (s : str) (n : Z) (pattern : str) : res str :=
  match pattern with
  | [c] =>
      let len := ulong n in
      if (2 ^ 63 - 1 <? len)%Z then Throw "length_error"
      else
        let fill := List.repeat c (Z.to_nat (len - Z.of_nat (length s))) in
        if (Z.of_nat (length s) <? len)%Z then Ok (if left then fill ++ s else s ++ fill) else Ok s
  | _ => Throw "SizeException"
  end.

(** ** String.os *)
(** mSize and mValue, 440-441. *)
Record sstr := SStr { so_size : Z; so_value : str }.
(** Constructor, 14-17. *)
Definition ss_new (v : str) : sstr := SStr (str_len v) v.
(** CharAt, 75-81, and operator[], 425-427. *)
Definition char_at (o : sstr) (i : Z) : res str :=
  if ((i <? 0) || (so_size o <=? i))%Z then Throw "OutOfBoundsException" else substr3 (so_value o) i 1.
(** Contains, 86-88. *)
Definition contains (o : sstr) (v : str) : bool := (0 <=? str_find (so_value o) v 0)%Z.
(** EndsWith, 93-95. *)
Definition ends_with (o : sstr) (t : str) : res bool :=
  let! start := checked 32 (str_len (so_value o) - str_len t) in
  let! r := substr2 (so_value o) start in Ok (str_eqb t r).
(** StartsWith, 193-195. *)
Definition starts_with (o : sstr) (t : str) : res bool := let! r := substr3 (so_value o) 0 (str_len t) in Ok (str_eqb t r).
(** IndexOf, 107-109. *)
Definition index_of (o : sstr) (t : str) (start : Z) : Z := str_find (so_value o) t start.
(** LastIndexOf, 114-123; the loop needs fuel. *)
Fixpoint last_index_loop (fuel : nat) (o : sstr) (t : str) (index : Z) : res Z :=
  match fuel with
  | O => Fuel
  | S fuel' =>
      let! next := checked 32 (index + 1) in
      let index2 := index_of o t next in
      if (index2 =? -1)%Z then Ok index else last_index_loop fuel' o t index2
  end.
Definition last_index_of (fuel : nat) (o : sstr) (t : str) : res Z := last_index_loop fuel o t (-1).
(** Replace, 135-149. *)
Definition replace (o : sstr) (old new : str) : res (sstr * bool) :=
  let pos := str_find (so_value o) old 0 in
  if (0 <=? pos)%Z then
    let! a := substr3 (so_value o) 0 pos in
    let! e := checked 32 (pos + str_len old) in
    let! b := substr2 (so_value o) e in
    Ok (ss_new (a ++ new ++ b), true)
  else Ok (o, false).
(** ReplaceAll, 154-162. *)
Fixpoint replace_all_loop (fuel : nat) (o : sstr) (old new : str) (found : bool) : res (sstr * bool) :=
  match fuel with
  | O => Fuel
  | S fuel' =>
      let! p := replace o old new in
      if snd p then replace_all_loop fuel' (fst p) old new true else Ok (fst p, found)
  end.
Definition replace_all (fuel : nat) (o : sstr) (old new : str) : res (sstr * bool) := replace_all_loop fuel o old new false.
(** RemoveCharAt, 167-174. *)
Definition remove_char_at (o : sstr) (i : Z) : res sstr :=
  if ((i <? 0) || (so_size o <=? i))%Z then Throw "OutOfBoundsException"
  else
    let! a := substr3 (so_value o) 0 i in
    let! b := substr2 (so_value o) (i + 1) in
    Ok (SStr (so_size o - 1) (a ++ b)).
(** SubString, 200-202 and 207-209. *)
Definition sub_string (o : sstr) (start : Z) : res str := substr2 (so_value o) start.
Definition sub_string_n (o : sstr) (start n : Z) : res str := substr3 (so_value o) start n.
(** ToLowerCase, 221-223; ToUpperCase, 235-237. *)
Definition ss_lower (o : sstr) : str := map to_lower (so_value o).
Definition ss_upper (o : sstr) : str := map to_upper (so_value o).
(** TrimLeft, 242-247; TrimRight, 266-271; Trim, 286-292. *)
Definition ss_trim_left (o : sstr) : sstr := ss_new (trim_left ($" ") (so_value o)).
Definition ss_trim_right (o : sstr) : sstr := ss_new (trim_right ($" ") (so_value o)).
Definition ss_trim (o : sstr) : sstr := ss_new (trim_right ($" ") (trim_left ($" ") (so_value o))).
(** TrimLeft( int ), 252-261; TrimRight( int ), 276-281. *)
Definition cut_left (o : sstr) (i : Z) : res sstr :=
  if ((i <? 0) || (so_size o <=? i))%Z then Throw "OutOfBoundsException"
  else let! v := substr2 (so_value o) i in Ok (ss_new v).
Definition cut_right (o : sstr) (i : Z) : res sstr :=
  let! n := checked 32 (str_len (so_value o) - i) in let! v := substr3 (so_value o) 0 n in Ok (ss_new v).
(** operator=, 325-331; operator+, 343-345; operator<<, 371-375: the size is not updated. *)
Definition ss_assign (o : sstr) (v : str) : sstr := ss_new v.
Definition ss_plus (o : sstr) (v : str) : sstr := ss_new (so_value o ++ v).
Definition ss_append (o : sstr) (v : str) : sstr := SStr (so_size o) (so_value o ++ v).
(** operator[]( int, int ), 432-438. *)
Definition ss_range (o : sstr) (first last : Z) : res str :=
  let! d := checked 32 (last - first) in
  if ((first <=? so_size o) && (so_size o <=? d))%Z then substr3 (so_value o) first d else Ok [].

(** What changes a string. *)
Inductive sop := SReplace (old new : str) | SReplaceAll (fuel : nat) (old new : str) | SRemove (i : Z) | STrimLeft | STrimRight | STrim
  | SCutLeft (i : Z) | SCutRight (i : Z) | SAssign (v : str) | SAppend (v : str).
(** An exception leaves the object as it was. *)
Definition keep (o : sstr) (r : res sstr) : res sstr := match r with Throw _ => Ok o | _ => r end.
Definition sstep (op : sop) (o : sstr) : res sstr :=
  match op with
  | SReplace a b => keep o (let! p := replace o a b in Ok (fst p))
  | SReplaceAll f a b => let! p := replace_all f o a b in Ok (fst p)
  | SRemove i => keep o (remove_char_at o i)
  | STrimLeft => Ok (ss_trim_left o)
  | STrimRight => Ok (ss_trim_right o)
  | STrim => Ok (ss_trim o)
  | SCutLeft i => keep o (cut_left o i)
  | SCutRight i => keep o (cut_right o i)
  | SAssign v => Ok (ss_assign o v)
  | SAppend v => Ok (ss_append o v)
  end.
Fixpoint srun (ops : list sop) (o : sstr) : res sstr :=
  match ops with [] => Ok o | op :: ops' => let! o' := sstep op o in srun ops' o' end.

(** ** StringIterator.os *)
(** mCurrentPosition, mNextPosition, mSeparator; 119-122. *)
Record siter := SIter { it_cur : Z; it_next : Z; it_sep : str }.
(** Constructor, 13-17, with setSeparator, 90-103, and reset, 82-85. *)
Definition siter_new (sep : str) : siter := SIter (-1) (str_len sep * -1) sep.
(** hasNext, 48-50. *)
Definition siter_has_next (o : sstr) (it : siter) : bool := (it_next it <? so_size o)%Z.
(** next, 56-72. *)
Definition siter_step (o : sstr) (it : siter) : res (str * siter) :=
  if (so_size o <=? it_next it)%Z then Throw "OutOfBoundsException"
  else
    let! cur := checked 32 (it_next it + str_len (it_sep it)) in
    let next := index_of o (it_sep it) cur in
    if (0 <=? next)%Z then
      let! d := checked 32 (next - cur) in
      let! r := sub_string_n o cur d in Ok (r, SIter cur next (it_sep it))
    else let! r := sub_string o cur in Ok (r, SIter cur (so_size o) (it_sep it)).
(** Reading everything: while ( it.hasNext() ) ... it.next(). *)
Fixpoint siter_all (fuel : nat) (o : sstr) (it : siter) : res (list str) :=
  match fuel with
  | O => Fuel
  | S fuel' =>
      if siter_has_next o it then
        let! p := siter_step o it in
        let! rest := siter_all fuel' o (snd p) in Ok (fst p :: rest)
      else Ok []
  end.

(** ** CharacterIterator.os *)
(** hasNext, 48-50, and next, 56-64, read to the end; the value and its length come from reset, 82-86. *)
Fixpoint citer_all (fuel : nat) (v : str) (index : Z) : res (list str) :=
  match fuel with
  | O => Fuel
  | S fuel' =>
      if (index <? str_len v)%Z then
        if (str_len v <? index + 1)%Z then Throw "OutOfBoundsException"
        else let! c := substr3 v (index + 1) 1 in
             let! rest := citer_all fuel' v (index + 1) in Ok (c :: rest)
      else Ok []
  end.
Definition characters (fuel : nat) (v : str) : res (list str) := citer_all fuel v (-1).
