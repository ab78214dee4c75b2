(** Model of the text functions of the extensions.
    Code: /repo/Projects/Extensions/LIBC/cstring/*.h, /repo/Projects/Extensions/System/Strings/StrPos.h, ToLower.h, ToUpper.h,
    /repo/Projects/Extensions/System/Ascii.h, and abs of /repo/Projects/Extensions/LIBC/stdlib/abs.h and LIBC/math/abs.h.
    (strlen, substr, strfind, the padding and the trimming functions are in SysStr_Model.)
    Parameters arrive as they are read by toStdString and toInt. The C functions are those of C11 7.24, on the characters
    in front of the first zero byte (std::string::c_str). Not modelled: strcoll, which depends on the locale. *)
From Verif Require Import Base Text_Model Value_Model SysStr_Model.

(** What a C function sees of a text: everything in front of the first zero byte. *)
Definition nul : ascii := ascii_of_nat 0.
Fixpoint c_str (s : str) : str :=
  match s with [] => [] | c :: s' => if bool_decide (c = nul) then [] else c :: c_str s' end.
Definition byte (c : ascii) : Z := Z.of_N (N_of_ascii c).

(** ** The C library *)
(** strcmp: bytes are compared unsigned; glibc answers the difference of the first bytes that differ, of which C promises
    the sign only. *)
Fixpoint c_strcmp (a b : str) : Z :=
  match a, b with
  | [], [] => 0
  | [], y :: _ => - byte y
  | x :: _, [] => byte x
  | x :: a', y :: b' => if bool_decide (x = y) then c_strcmp a' b' else (byte x - byte y)%Z
  end.
(** strncmp: at most [n] bytes. *)
Fixpoint c_strncmp (a b : str) (n : Z) : Z :=
  if (n =? 0)%Z then 0%Z
  else match a, b with
  | [], [] => 0%Z
  | [], y :: _ => (- byte y)%Z
  | x :: _, [] => byte x
  | x :: a', y :: b' => if bool_decide (x = y) then c_strncmp a' b' (n - 1) else (byte x - byte y)%Z
  end.
(** strspn and strcspn: how many bytes at the front are (not) in the set. *)
Fixpoint c_span (inside : bool) (a set : str) : Z :=
  match a with
  | [] => 0%Z
  | x :: a' => if Bool.eqb (bool_decide (x ∈ set)) inside then (1 + c_span inside a' set)%Z else 0%Z
  end.
(** strchr: from the first [c] on; the zero byte at the end counts. *)
Fixpoint c_strchr (a : str) (c : ascii) : option str :=
  match a with
  | [] => if bool_decide (c = nul) then Some [] else None
  | x :: a' => if bool_decide (x = c) then Some (x :: a') else c_strchr a' c
  end.
(** strrchr: from the last [c] on. *)
Fixpoint c_strrchr (a : str) (c : ascii) : option str :=
  match a with
  | [] => if bool_decide (c = nul) then Some [] else None
  | x :: a' =>
      match c_strrchr a' c with
      | Some w => Some w
      | None => if bool_decide (x = c) then Some (x :: a') else None
      end
  end.
(** strpbrk: from the first byte of the set on. *)
Fixpoint c_strpbrk (a set : str) : option str :=
  match a with [] => None | x :: a' => if bool_decide (x ∈ set) then Some (x :: a') else c_strpbrk a' set end.
(** strstr: from the first place of [t] on. *)
Fixpoint c_strstr (a t : str) : option str :=
  if is_prefix t a then Some a
  else match a with [] => None | _ :: a' => c_strstr a' t end.
(** std::string(const char* ): a null pointer is undefined behaviour. *)
Definition from_pointer (p : option str) : res str := match p with Some w => Ok w | None => UB end.
(** The conversions of an int64_t to int and from there to char. *)
Definition to_char (z : Z) : ascii := ascii_of_N (Z.to_N (z mod 256)).

(** ** The extension methods *)
(** strcat.h:38-50. *)
Definition ext_strcat (destination source : str) : str := destination ++ source.
(** strncat.h:39-52: source.substr(num). *)
Definition ext_strncat (destination source : str) (num : Z) : res str :=
  let! r := substr2 source num in Ok (destination ++ r).
(** strcmp.h:39-51. *)
Definition ext_strcmp (s1 s2 : str) : Z := wrap 32 (c_strcmp (c_str s1) (c_str s2)).
(** strncmp.h:39-52: the number becomes a size_t. *)
Definition ext_strncmp (s1 s2 : str) (num : Z) : Z := wrap 32 (c_strncmp (c_str s1) (c_str s2) (ulong num)).
(** strspn.h:39-51 and strcspn.h:39-51. *)
Definition ext_strspn (dest src : str) : Z := wrap 32 (c_span true (c_str dest) (c_str src)).
Definition ext_strcspn (dest src : str) : Z := wrap 32 (c_span false (c_str dest) (c_str src)).
(** strchr.h:39-51, strrchr.h:39-51. *)
Definition ext_strchr (s : str) (ch : Z) : res str := from_pointer (c_strchr (c_str s) (to_char ch)).
Definition ext_strrchr (s : str) (ch : Z) : res str := from_pointer (c_strrchr (c_str s) (to_char ch)).
(** strpbrk.h:38-50. *)
Definition ext_strpbrk (dest breakset : str) : res str := from_pointer (c_strpbrk (c_str dest) (c_str breakset)).
(** strstr.h:39-51. *)
Definition ext_strstr (s t : str) : res str := from_pointer (c_strstr (c_str s) (c_str t)).
(** StrPos.h:40-60. *)
Definition ext_strpos (s : str) (index : Z) : res str :=
  if (Z.of_nat (length s) <? ulong index)%Z then Throw "SizeException" else cpp_substr s (ulong index) 1.
(** ToLower.h:39-54 and ToUpper.h:39-54, in the C locale. *)
Definition ext_to_lower (s : str) : str := map to_lower s.
Definition ext_to_upper (s : str) : str := map to_upper s.
(** Ascii.h:40-54. *)
Definition ext_ascii (n : Z) : str := [to_char n].
(** ABSInt of LIBC/stdlib/abs.h:100-113: std::abs of an int64_t, cut to int32_t. *)
Definition ext_abs (z : Z) : Z := wrap 32 (Z.abs z).
(** ABS of LIBC/math/abs.h: abs of an int32_t, whose smallest value has no counterpart. *)
Definition ext_abs_math (z : Z) : res Z := checked 32 (Z.abs (wrap 32 z)).
