(** Specification for the JSON builders (C74): which calls stand for a document. *)
From Verif Require Import Base Text_Model Json_Model Json_Spec Build_Model.

(** Documents whose strings and keys are written so that their end can be found (see [unescape]). *)
Fixpoint escaped (v : json) : Prop :=
  match v with
  | JNull | JBool _ | JNum _ => True
  | JStr s => is_Some (unescape s)
  | JArr l => (fix all l := match l with [] => True | x :: r => escaped x /\ all r end) l
  | JObj l => (fix all l := match l with [] => True | (k, x) :: r => (is_Some (unescape k) /\ escaped x) /\ all r end) l
  end.
(** The calls that add a value, with a key as a member of an object, without one as an element of an array. *)
Definition add (k : option str) (v : scalar) : call := match k with Some k => AddElement k v | None => AddValue v end.
Inductive adds : option str -> json -> list call -> Prop :=
| adds_bool k b : adds k (JBool b) [add k (SBool b)]
| adds_int k z : adds k (JNum (print_int z)) [add k (SInt z)]
| adds_string k s : adds k (JStr s) [add k (SString s)]
| adds_array k l cs : adds_elements l cs -> adds k (JArr l) (BeginArray k :: cs ++ [EndArray])
| adds_object k l cs : adds_members l cs -> adds k (JObj l) (BeginObject k :: cs ++ [EndObject])
with adds_elements : list json -> list call -> Prop :=
| elements_none : adds_elements [] []
| elements_more v l cs cs' : adds None v cs -> adds_elements l cs' -> adds_elements (v :: l) (cs ++ cs')
with adds_members : list (str * json) -> list call -> Prop :=
| members_none : adds_members [] []
| members_more k v l cs cs' : adds (Some k) v cs -> adds_members l cs' -> adds_members ((k, v) :: l) (cs ++ cs').
Scheme adds_mut := Minimality for adds Sort Prop with elements_mut := Minimality for adds_elements Sort Prop with members_mut := Minimality for adds_members Sort Prop.
Combined Scheme adds_all from adds_mut, elements_mut, members_mut.
(** Documents that come back unchanged: without numbers, quotes and backslashes. *)
Fixpoint unchanged (v : json) : Prop :=
  match v with
  | JNull | JNum _ => False
  | JBool _ => True
  | JStr s => plain s
  | JArr l => (fix all l := match l with [] => True | x :: r => unchanged x /\ all r end) l
  | JObj l => (fix all l := match l with [] => True | (k, x) :: r => (plain k /\ unchanged x) /\ all r end) l
  end.
