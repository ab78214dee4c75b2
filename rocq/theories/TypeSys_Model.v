(** Model of the static operator table.
    Code: /repo/Projects/Core/Core/VirtualMachine/TypeSystem.cpp:27-92, TypeSystem.h:22-88,
    and Repository::initTypeSystem, /repo/Projects/Core/Core/VirtualMachine/Repository.cpp:610-753. *)
From Verif Require Import Base Tok_Model TypeTable.

(** The three nested std::map of TypeSystem.h:22-88, flattened: one entry per
    (left type, operator, right type). An outer key is present in the C++ maps exactly when
    some entry below it is, because define inserts all three levels at once. *)
Definition entry : Type := str * ttype * str * str.
Definition table := list entry.

Definition has_left (l : str) (e : entry) : bool :=
  let '(l', _, _, _) := e in str_eqb l' l.
Definition has_op (l : str) (op : ttype) (e : entry) : bool :=
  let '(l', op', _, _) := e in str_eqb l' l && ttype_eqb op' op.
Definition has_all (l : str) (op : ttype) (r : str) (e : entry) : bool :=
  let '(l', op', r', _) := e in str_eqb l' l && ttype_eqb op' op && str_eqb r' r.
Definition e_result (e : entry) : str := let '(_, _, _, t) := e in t.

(** TypeSystem::define, TypeSystem.cpp:27-44: an entry that exists is left alone. *)
Definition define (t : table) (l : str) (op : ttype) (r res : str) : table :=
  if existsb (has_all l op r) t then t else t ++ [(l, op, r, res)].

(** TypeSystem::exists, TypeSystem.cpp:46-59. *)
Definition exists_type (t : table) (l : str) (op : ttype) (r : str) : bool :=
  match find (has_all l op r) t with
  | Some e => negb (bool_decide (e_result e = []))
  | None => false
  end.

(** TypeSystem::getType, TypeSystem.cpp:66-79. *)
Definition get_type (t : table) (l : str) (op : ttype) (r : str) : res str :=
  if negb (existsb (has_left l) t) then Throw "UnknownIdentifier"
  else if negb (existsb (has_op l op) t) then Throw "UnknownOperation"
  else match find (has_all l op r) t with
       | Some e => Ok (e_result e)
       | None => Throw "TypeMismatch"
       end.

(** One define call. *)
Definition defn : Type := str * ttype * str * str.
Definition define1 (t : table) (d : defn) : table :=
  let '(l, op, r, res) := d in define t l op r res.
Definition define_all (t : table) (ds : list defn) : table := fold_left define1 ds t.

(** TypeSystem::init, TypeSystem.cpp:81-92: the define calls of all built-in types. *)
Definition builtin_defs : list defn :=
  flat_map (fun rw : row => let '(l, op, rs) := rw in map (fun p => (l, op, fst p, snd p)) rs) builtin_rows.
Definition builtin_table : table := define_all [] builtin_defs.

(** ** User types, Repository::initTypeSystem *)
(** What initTypeSystem reads of a blueprint: its qualified type name, whether it is an
    enumeration, its methods (name, parameter types, return type) and its ancestors. *)
Record method_sig := MSig { ms_name : str; ms_params : list str; ms_ret : str }.
Record blueprint := BP { bp_name : str; bp_enum : bool; bp_methods : list method_sig; bp_ancestors : list str }.

(** Repository.cpp:617-662, the define calls for an enumeration named [e]. *)
Definition comparisons : list ttype :=
  [COMPARE_EQUAL; COMPARE_LESS; COMPARE_LESS_EQUAL; COMPARE_GREATER; COMPARE_GREATER_EQUAL; COMPARE_UNEQUAL].
Definition enum_defs (e : str) : list defn :=
  [(e, ASSIGN, e, e); (t_int, ASSIGN, e, t_int); (t_string, ASSIGN, e, t_string)]
  ++ map (fun op => (e, op, e, t_bool)) comparisons
  ++ map (fun op => (e, op, t_int, t_bool)) comparisons
  ++ map (fun op => (t_int, op, e, t_bool)) comparisons
  ++ [(e, MATH_ADDITION, e, e); (e, MATH_DIVIDE, e, e); (e, MATH_MODULO, e, t_float);
      (e, MATH_MULTIPLY, e, e); (e, MATH_SUBTRACT, e, e)]
  ++ [(t_int, TYPECAST, e, t_int); (t_string, TYPECAST, e, t_string)].

(** Repository.cpp:664-729, the define calls for one method. *)
Definition method_defs (me : str) (m : method_sig) : list defn :=
  let n := ms_name m in
  match ms_params m with
  | [p] =>
      if str_eqb n ($"operator=") then [(me, ASSIGN, p, me)]
      else if str_eqb n ($"operator&") then [(me, BITAND, p, me)]
      else if str_eqb n ($"operator|") then [(me, BITOR, p, me)]
      else if str_eqb n ($"operator~") then [(me, BITCOMPLEMENT, p, me)]
      else if str_eqb n ($"operator==") then [(me, COMPARE_EQUAL, p, ms_ret m); (me, COMPARE_EQUAL_CONTENT, p, ms_ret m)]
      else if str_eqb n ($"operator<") then [(me, COMPARE_LESS, p, ms_ret m)]
      else if str_eqb n ($"operator<=") then [(me, COMPARE_LESS_EQUAL, p, ms_ret m)]
      else if str_eqb n ($"operator>") then [(me, COMPARE_GREATER, p, ms_ret m)]
      else if str_eqb n ($"operator>=") then [(me, COMPARE_GREATER_EQUAL, p, ms_ret m)]
      else if str_eqb n ($"operator+") then [(me, MATH_ADDITION, p, me)]
      else if str_eqb n ($"operator/") then [(me, MATH_DIVIDE, p, me)]
      else if str_eqb n ($"operator%") then [(me, MATH_MODULO, p, me)]
      else if str_eqb n ($"operator*") then [(me, MATH_MULTIPLY, p, me)]
      else if str_eqb n ($"operator-") then [(me, MATH_SUBTRACT, p, me)]
      else if str_eqb n ($"operator<<") then [(me, OPERATOR_SHIFT_LEFT, p, me)]
      else if str_eqb n ($"operator>>") then [(me, OPERATOR_SHIFT_RIGHT, p, me)]
      else if str_eqb n ($"=operator") then [(ms_ret m, ASSIGN, me, ms_ret m); (ms_ret m, TYPECAST, me, ms_ret m)]
      else []
  | [] =>
      if str_eqb n ($"operator--") then [(me, OPERATOR_DECREMENT, t_void, me)]
      else if str_eqb n ($"operator++") then [(me, OPERATOR_INCREMENT, t_void, me)]
      else []
  | _ => []
  end.

(** Repository.cpp:731-752, the default define calls. *)
Definition default_defs (b : blueprint) : list defn :=
  let me := bp_name b in
  [(me, COMPARE_EQUAL, t_object, t_bool); (t_object, COMPARE_EQUAL, me, t_bool);
   (me, ASSIGN, me, me); (me, TYPECAST, me, me);
   (me, COMPARE_EQUAL, me, t_bool); (me, COMPARE_EQUAL_CONTENT, me, t_bool)]
  ++ flat_map (fun a => [(a, ASSIGN, me, a); (a, TYPECAST, me, a)]) (bp_ancestors b).

(** Repository::initTypeSystem, Repository.cpp:610-753. *)
Definition init_blueprint (t : table) (b : blueprint) : table :=
  let me := bp_name b in
  if exists_type t me ASSIGN me then t
  else if bp_enum b then define_all t (enum_defs me)
  else define_all t (flat_map (method_defs me) (bp_methods b) ++ default_defs b).
