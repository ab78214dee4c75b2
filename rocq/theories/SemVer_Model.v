(** Model of version numbers.
    Code: /repo/Projects/Utils/SemVer/Version.cpp, Version.h and the Slang
    library /repo/Projects/Library/libSemVer/SemVer.os. *)
From Verif Require Import Base Text_Model.

(** static_cast<int32_t> of an int64_t: modulo 2^32. *)
Definition to_int32 (z : Z) : Z := ((z + 2147483648) mod 4294967296 - 2147483648)%Z.

(** Version.h:46-71 (mIsValid separately). *)
Record version := Version { v_major : Z; v_minor : Z; v_bugfix : Z; v_label : str; v_meta : str }.

(** SemanticVersionNumber::parse, Version.cpp:94-126: the version and mIsValid.
    An empty text leaves the members at their defaults. *)
Definition parse_version (s : str) : version * bool :=
  match s with
  | [] => (Version 0 0 0 [] [], false)
  | _ =>
      let a := split_by s (chr 46) in
      let b := split_by (snd a) (chr 46) in
      let c := split_by (snd b) (chr 43) in
      let d := split_by (fst c) (chr 45) in
      let v := Version (to_int32 (string_to_int (fst a))) (to_int32 (string_to_int (fst b)))
                       (to_int32 (string_to_int (fst d))) (snd d) (snd c) in
      (v, negb ((v_major v =? 0)%Z && (v_minor v =? 0)%Z && (v_bugfix v =? 0)%Z &&
                bool_decide (v_label v = []) && bool_decide (v_meta v = [])))
  end.

(** toString, Version.cpp:128-135. *)
Definition print_version (v : version) : str :=
  print_int (v_major v) ++ $"." ++ print_int (v_minor v) ++ $"." ++ print_int (v_bugfix v) ++
  (if bool_decide (v_label v = []) then [] else chr 45 :: v_label v) ++
  (if bool_decide (v_meta v = []) then [] else chr 43 :: v_meta v).

(** operator==, Version.cpp:34-41. *)
Definition version_eqb (a b : version) : bool :=
  ((v_major a =? v_major b) && (v_minor a =? v_minor b) && (v_bugfix a =? v_bugfix b))%Z &&
  str_eqb (v_label a) (v_label b) && str_eqb (v_meta a) (v_meta b).

(** operator<, Version.cpp:62-82. *)
Definition version_ltb (a b : version) : bool :=
  if (v_major a =? v_major b)%Z then
    if (v_minor a =? v_minor b)%Z then
      if (v_bugfix a =? v_bugfix b)%Z then
        if str_eqb (v_label a) (v_label b) then str_ltb (v_meta a) (v_meta b)
        else negb (bool_decide (v_label a = []))
      else (v_bugfix a <? v_bugfix b)%Z
    else (v_minor a <? v_minor b)%Z
  else (v_major a <? v_major b)%Z.

(** nextBugfix/nextMajor/nextMinor, Version.h:42-60; signed overflow is undefined. *)
Definition int32_max : Z := 2147483647%Z.
Definition next_bugfix (v : version) : res version :=
  if (v_bugfix v =? int32_max)%Z then UB else Ok (Version (v_major v) (v_minor v) (v_bugfix v + 1) [] []).
Definition next_minor (v : version) : res version :=
  if (v_minor v =? int32_max)%Z then UB else Ok (Version (v_major v) (v_minor v + 1) 0 [] []).
Definition next_major (v : version) : res version :=
  if (v_major v =? int32_max)%Z then UB else Ok (Version (v_major v + 1) 0 0 [] []).

(** ** The Slang library SemVer.os *)
(** A string used as a condition: StringType::operator_bool = stringToBool. *)
Definition truthy (s : str) : bool := string_to_bool s.
(** operator<, SemVer.os:84-105. *)
Definition lib_ltb (a b : version) : bool :=
  if (v_major a =? v_major b)%Z then
    if (v_minor a =? v_minor b)%Z then
      if (v_bugfix a =? v_bugfix b)%Z then
        if str_eqb (v_label a) (v_label b) then str_ltb (v_meta a) (v_meta b)
        else if truthy (v_label a) && truthy (v_label b) then str_ltb (v_label a) (v_label b)
        else truthy (v_label a) && negb (truthy (v_label b))
      else (v_bugfix a <? v_bugfix b)%Z
    else (v_minor a <? v_minor b)%Z
  else (v_major a <? v_major b)%Z.
(** operator>, SemVer.os:110-131. *)
Definition lib_gtb (a b : version) : bool :=
  if (v_major a =? v_major b)%Z then
    if (v_minor a =? v_minor b)%Z then
      if (v_bugfix a =? v_bugfix b)%Z then
        if str_eqb (v_label a) (v_label b) then str_ltb (v_meta b) (v_meta a)
        else if truthy (v_label a) && truthy (v_label b) then str_ltb (v_label b) (v_label a)
        else negb (truthy (v_label a)) && truthy (v_label b)
      else (v_bugfix b <? v_bugfix a)%Z
    else (v_minor b <? v_minor a)%Z
  else (v_major b <? v_major a)%Z.
(** The cast to string, SemVer.os:147-153. *)
Definition lib_print (v : version) : str :=
  print_int (v_major v) ++ $"." ++ print_int (v_minor v) ++ $"." ++ print_int (v_bugfix v) ++
  (if truthy (v_label v) then chr 45 :: v_label v else []) ++
  (if truthy (v_meta v) then chr 43 :: v_meta v else []).
(** strfind(text, ch, start): index of the first occurrence from start, -1 if
    none (Extensions/System/Strings/StrFind.h). A start beyond the end: -1. *)
Definition strfind (s : str) (c : ascii) (start : nat) : Z :=
  match find_first c (drop start s) with Some i => Z.of_nat (start + i) | None => (-1)%Z end.
(** substr(text, start, length) (Extensions/System/Strings/SubStr.h); start is
    within the text at all uses below. *)
Definition substr (s : str) (start len : nat) : str := take len (drop start s).
(** FromString, SemVer.os:13-37. [!dot] on an int is [dot == 0]. *)
Definition lib_from_string (s : str) : res version :=
  let dot1 := strfind s (chr 46) 0 in
  if (dot1 =? 0)%Z then Throw "string"
  else
    let dot2 := strfind s (chr 46) (Z.to_nat (dot1 + 1)) in
    if (dot2 =? 0)%Z then Throw "string"
    else if ((dot1 =? -1) || (dot2 =? -1))%Z || (length s <? 5)%nat then Throw "string"
    else
      let d1 := Z.to_nat dot1 in
      let d2 := Z.to_nat dot2 in
      let dash := strfind s (chr 45) (d2 + 1) in
      let label := if (dash =? -1)%Z then [] else drop (Z.to_nat dash + 1) s in
      Ok (Version (to_int32 (string_to_int (substr s 0 d1)))
                  (to_int32 (string_to_int (substr s (d1 + 1) d2)))
                  (to_int32 (string_to_int (drop (d2 + 1) s)))
                  label []).
