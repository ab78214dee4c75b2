(** Model of the string tools.
    Code: /repo/Projects/Utils/Tools/Strings.cpp, Strings.h. *)
From Verif Require Import Base.

Definition chr (n : nat) : ascii := ascii_of_nat n.

(** ** Character classes *)
(** isspace in the "C" locale (stream extraction skips these). *)
Definition is_space (c : ascii) : bool :=
  let n := nat_of_ascii c in ((9 <=? n) && (n <=? 13) || (n =? 32))%nat.
Definition is_digit (c : ascii) : bool :=
  let n := nat_of_ascii c in ((48 <=? n) && (n <=? 57))%nat.
(** ::tolower in the "C" locale. *)
Definition to_lower (c : ascii) : ascii :=
  let n := nat_of_ascii c in if ((65 <=? n) && (n <=? 90))%nat then ascii_of_nat (n + 32) else c.
Definition to_upper (c : ascii) : ascii :=
  let n := nat_of_ascii c in if ((97 <=? n) && (n <=? 122))%nat then ascii_of_nat (n - 32) else c.
Definition mem (c : ascii) (t : str) : bool := bool_decide (c ∈ t).

(** ** Integers *)
Definition digit_val (c : ascii) : N := (N_of_ascii c - 48)%N.
Definition digit_chr (d : N) : ascii := ascii_of_N (48 + d).

(** Utils::Tools::toString<T> for integer types, Strings.h:46-51:
    operator<< of an ostream prints the decimal digits. [f] is fuel. *)
Fixpoint digits_fuel (f : nat) (n : N) : str :=
  match f with
  | O => []
  | S f' => if (n <? 10)%N then [digit_chr n] else digits_fuel f' (n / 10) ++ [digit_chr (n mod 10)]
  end.
Definition digits (n : N) : str := digits_fuel (S (N.size_nat n)) n.
Definition print_int (z : Z) : str :=
  match z with
  | Zneg p => chr 45 :: digits (Npos p)
  | _ => digits (Z.to_N z)
  end.
(** operator<< prints a bool as 0 or 1 (no boolalpha). *)
Definition print_bool (b : bool) : str := if b then $"1" else $"0".

(** The digits at the front of the text. *)
Fixpoint parse_digits (acc : N) (s : str) : N :=
  match s with
  | c :: s' => if is_digit c then parse_digits (acc * 10 + digit_val c) s' else acc
  | [] => acc
  end.
Fixpoint skip_space (s : str) : str :=
  match s with c :: s' => if is_space c then skip_space s' else s | [] => [] end.
Definition int64_min : Z := (-9223372036854775808)%Z.
Definition int64_max : Z := 9223372036854775807%Z.
Definition clamp64 (z : Z) : Z := Z.max int64_min (Z.min int64_max z).
(** stringToInt, Strings.cpp:140-152: operator>> into int64_t skips white space,
    takes an optional sign and the longest run of digits; 0 if there is none; the
    nearest bound on overflow. *)
Definition string_to_int (s : str) : Z :=
  match skip_space s with
  | c :: s' =>
      if bool_decide (c = chr 45) then clamp64 (- Z.of_N (parse_digits 0 s'))
      else if bool_decide (c = chr 43) then clamp64 (Z.of_N (parse_digits 0 s'))
      else clamp64 (Z.of_N (parse_digits 0 (c :: s')))
  | [] => 0%Z
  end.

(** ** Trimming, Strings.cpp:154-171; default characters: blank (Strings.h:40-42) *)
Fixpoint trim_left (t s : str) : str :=
  match s with c :: s' => if mem c t then trim_left t s' else s | [] => [] end.
Definition trim_right (t s : str) : str := reverse (trim_left t (reverse s)).
Definition trim (t s : str) : str := trim_left t (trim_right t s).

(** ** Splitting, Strings.cpp:60-83 *)
Fixpoint find_first (c : ascii) (s : str) : option nat :=
  match s with
  | [] => None
  | x :: s' => if bool_decide (x = c) then Some 0%nat else option_map S (find_first c s')
  end.
Definition split_by (s : str) (c : ascii) : str * str :=
  match find_first c s with
  | None => (s, [])
  | Some i => (take i s, drop (S i) s)
  end.
Definition split (s : str) : str * str := split_by s (chr 46).

(** ** Case, comparison, booleans, quotes *)
(** toLowerCase, Strings.cpp:174-179. *)
Definition to_lower_case (s : str) : str := map to_lower s.
(** StringCompareI, Strings.cpp:90-97. *)
Definition string_compare_i (a b : str) : bool :=
  (length a =? length b)%nat && forallb (fun p => bool_decide (to_upper (fst p) = to_upper (snd p))) (zip a b).
(** stringToBool, Strings.cpp:99-110. *)
Definition string_to_bool (s : str) : bool :=
  let n := to_lower_case (trim ($" ") s) in
  negb (bool_decide (n = [])) && negb (bool_decide (n = [chr 10])) && negb (bool_decide (n = $"false")).
(** extract, Strings.cpp:20-45. *)
Definition strip_quotes (s : str) (q : ascii) : str :=
  match head s, last s with
  | Some a, Some b => if bool_decide (a = q) && bool_decide (b = q) then take (length s - 2) (drop 1 s) else []
  | _, _ => []
  end.
Definition extract (s : str) : str :=
  match s with
  | [] => []
  | c :: _ => if bool_decide (c = chr 34) then strip_quotes s (chr 34)
              else if bool_decide (c = chr 39) then strip_quotes s (chr 39) else []
  end.
