(** Model of atomic values, built-in run-time operators and their dispatch.
    Code: /repo/Projects/Core/Core/Runtime/AtomicValue.cpp, Runtime/BuildInTypes/*.cpp,
    Runtime/OperatorOverloading.cpp, Runtime/TypeCast.cpp, Runtime/Utils.cpp, Object.cpp. *)
From Coq Require Import Floats.SpecFloat.
From Verif Require Import Base Text_Model Tok_Model TypeTable.

(** ** Machine integers *)
(** Range of the two's complement integers of [w] bits. *)
Definition in_range (w : Z) (z : Z) : bool := ((- 2 ^ (w - 1) <=? z) && (z <? 2 ^ (w - 1)))%Z.
(** Conversion to intN_t: reduction modulo 2^w (as gcc and C++20 define it). *)
Definition wrap (w : Z) (z : Z) : Z := ((z + 2 ^ (w - 1)) mod 2 ^ w - 2 ^ (w - 1))%Z.
(** The result of a signed operation of width [w]: overflow is undefined behaviour. *)
Definition checked (w : Z) (z : Z) : res Z := if in_range w z then Ok z else UB.

Inductive width := W16 | W32 | W64.
Definition bits (w : width) : Z := match w with W16 => 16 | W32 => 32 | W64 => 64 end.
(** Integral promotion: operands of 16 bits are computed with 32 bits. *)
Definition promoted (w : width) : Z := match w with W16 => 32 | W32 => 32 | W64 => 64 end.

(** ** Floating point: IEEE 754 binary64 and binary32 of Coq's SpecFloat, rounding to
    nearest even. Text conversions of floating point numbers are not modelled: they are
    the functions of this record, over which everything below is quantified. *)
Record fio := FIO {
  print_double : spec_float -> str;
  print_float : spec_float -> str;
  parse_double : str -> spec_float;
  parse_float : str -> spec_float }.

Definition d_of_int (z : Z) : spec_float := binary_normalize 53 1024 z 0 false.
Definition f_of_int (z : Z) : spec_float := binary_normalize 24 128 z 0 false.
Definition renorm (prec emax : Z) (x : spec_float) : spec_float :=
  match x with
  | S754_finite s m e => binary_normalize prec emax (if s then Zneg m else Zpos m) e s
  | _ => x
  end.
Definition d_of_float (x : spec_float) : spec_float := renorm 53 1024 x.
Definition f_of_double (x : spec_float) : spec_float := renorm 24 128 x.
(** Conversion to int64_t truncates; out of range and NaN are undefined behaviour. *)
Definition int_of_fp (x : spec_float) : res Z :=
  match x with
  | S754_zero _ => Ok 0%Z
  | S754_finite s m e =>
      let a := if (0 <=? e)%Z then (Zpos m * 2 ^ e)%Z else (Zpos m / 2 ^ (- e))%Z in
      checked 64 (if s then - a else a)%Z
  | _ => UB
  end.
Definition fp_nonzero (x : spec_float) : bool :=
  match x with S754_zero _ => false | _ => true end.

(** ** AtomicValue, AtomicValue.cpp *)
Inductive atomic :=
| ABool (b : bool) | ADouble (d : spec_float) | AFloat (f : spec_float)
| AInt (z : Z) | ARef (r : N) | AStr (s : str).

Section WithIo.
Context (F : fio).

Definition b2z (b : bool) : Z := if b then 1%Z else 0%Z.
(** AtomicValue.cpp:198-212. *)
Definition to_bool (v : atomic) : bool :=
  match v with
  | ABool b => b
  | ADouble d => fp_nonzero d
  | AFloat f => fp_nonzero f
  | AInt z => negb (z =? 0)%Z
  | ARef r => negb (r =? 0)%N
  | AStr s => string_to_bool s
  end.
(** AtomicValue.cpp:214-228. *)
Definition to_double (v : atomic) : spec_float :=
  match v with
  | ABool b => d_of_int (b2z b)
  | ADouble d => d
  | AFloat f => d_of_float f
  | AInt z => d_of_int z
  | ARef r => d_of_int (b2z (negb (r =? 0)%N))
  | AStr s => parse_double F s
  end.
(** AtomicValue.cpp:230-244. *)
Definition to_float (v : atomic) : spec_float :=
  match v with
  | ABool b => f_of_int (b2z b)
  | ADouble d => f_of_double d
  | AFloat f => f
  | AInt z => f_of_int z
  | ARef r => f_of_int (b2z (negb (r =? 0)%N))
  | AStr s => parse_float F s
  end.
(** AtomicValue.cpp:246-260. *)
Definition to_int (v : atomic) : res Z :=
  match v with
  | ABool b => Ok (b2z b)
  | ADouble d => int_of_fp d
  | AFloat f => int_of_fp f
  | AInt z => Ok z
  | ARef r => Ok (b2z (negb (r =? 0)%N))
  | AStr s => Ok (string_to_int s)
  end.
(** AtomicValue.cpp:279-293. *)
Definition to_std_string (v : atomic) : str :=
  match v with
  | ABool b => print_bool b
  | ADouble d => print_double F d
  | AFloat f => print_float F f
  | AInt z => print_int z
  | ARef r => print_int (Z.of_N r)
  | AStr s => s
  end.

(** ** Objects: what the operators read of a Runtime::Object (Object.h).
    [o_isref] is mIsReference, [o_ref] the id of mReference, 0 when invalid. *)
Record obj := Obj { o_type : str; o_atomic : bool; o_enum : bool; o_isref : bool; o_ref : N; o_val : atomic }.
(** An object of a built-in type (constructors in BuildInTypes/*.cpp). *)
Definition mk (t : str) (v : atomic) : obj := Obj t true false false 0 v.
(** An enumeration value of type [t], EnumerationType.cpp:24-31. *)
Definition mk_enum (t : str) (z : Z) : obj := Obj t true true false 0 (AInt z).

(** Object::isValid, Object.cpp:342-349; isTrue, Runtime/Utils.cpp:17-24. *)
Definition is_valid (o : obj) : bool := if o_atomic o then to_bool (o_val o) else negb (o_ref o =? 0)%N.
Definition is_true (o : obj) : bool := is_valid o.

(** The chain of comparisons with the TYPENAME constants that starts every function of
    OperatorOverloading.cpp. *)
Inductive kind := KBool | KDouble | KFloat | KInt (w : width) | KString | KVoid | KOther.
Definition kind_of (t : str) : kind :=
  if str_eqb t t_bool then KBool
  else if str_eqb t t_double then KDouble
  else if str_eqb t t_float then KFloat
  else if str_eqb t t_int16 then KInt W16
  else if str_eqb t t_int then KInt W32
  else if str_eqb t t_int64 then KInt W64
  else if str_eqb t t_string then KString
  else if str_eqb t t_void then KVoid
  else KOther.
Definition int_name (w : width) : str := match w with W16 => t_int16 | W32 => t_int | W64 => t_int64 end.

(** The guard of the operators of BuildInTypes/*.cpp: the types a right operand may have.
    [with_bool], [with_string] say whether BoolType and StringType are listed. *)
Definition accepts (with_bool with_string : bool) (r : obj) : bool :=
  (with_bool && str_eqb (o_type r) t_bool)
  || str_eqb (o_type r) t_double || str_eqb (o_type r) t_enum || str_eqb (o_type r) t_float
  || str_eqb (o_type r) t_int16 || str_eqb (o_type r) t_int || str_eqb (o_type r) t_int64
  || (with_string && str_eqb (o_type r) t_string) || o_enum r.

(** ** Arithmetic *)
Inductive aop := OAdd | OSub | OMul | ODiv | OMod | OAnd | OOr | OCompl | OShl | OShr.

(** The C++ operator on two integers of [w] bits. *)
Definition int_op (w : width) (op : aop) (a b : Z) : res Z :=
  match op with
  | OAdd => checked (promoted w) (a + b)
  | OSub => checked (promoted w) (a - b)
  | OMul => checked (promoted w) (a * b)
  | ODiv => if (b =? 0)%Z then UB else checked (promoted w) (Z.quot a b)
  | OMod => if (b =? 0)%Z then UB
            else if in_range (promoted w) (Z.quot a b) then Ok (Z.rem a b) else UB
  | OAnd => Ok (Z.land a b)
  | OOr => Ok (Z.lor a b)
  | OCompl | OShl | OShr => Throw "InvalidOperation"
  end.

(** Int16Type.cpp, Int32Type.cpp, Int64Type.cpp:102-333: every operator casts both operands
    to the type's width; bit complement and shifts are inherited from Object
    (Object.cpp:378-381, 445-453) and throw. The left operand is the temporary
    IntNType(lvalue->getValue().toInt()) of OperatorOverloading.cpp. *)
Definition int_binary (w : width) (op : aop) (l r : obj) : res atomic :=
  let! a0 := to_int (o_val l) in
  let a := wrap (bits w) a0 in
  match op with
  | OCompl | OShl | OShr => Throw "InvalidOperation"
  | _ =>
    if accepts true (match op with OAnd | OOr => false | _ => true end) r then
      let! b := to_int (o_val r) in
      let! z := int_op w op a (wrap (bits w) b) in
      Ok (AInt z)
    else Throw "InvalidOperation"
  end.

Definition fp_op (prec emax : Z) (op : aop) (a b : spec_float) : res spec_float :=
  match op with
  | OAdd => Ok (SFadd prec emax a b)
  | OSub => Ok (SFsub prec emax a b)
  | OMul => Ok (SFmul prec emax a b)
  | ODiv => Ok (SFdiv prec emax a b)
  | _ => Throw "InvalidOperation"
  end.
(** DoubleType.cpp:96-264: + - * / only; no string operand. *)
Definition double_binary (op : aop) (l r : obj) : res atomic :=
  match op with
  | OAdd | OSub | OMul | ODiv =>
      if accepts true false r then
        let! z := fp_op 53 1024 op (to_double (o_val l)) (to_double (o_val r)) in Ok (ADouble z)
      else Throw "InvalidOperation"
  | _ => Throw "InvalidOperation"
  end.
(** FloatType.cpp:98-256: + - * / only; neither bool nor string operand. *)
Definition float_binary (op : aop) (l r : obj) : res atomic :=
  match op with
  | OAdd | OSub | OMul | ODiv =>
      if accepts false false r then
        let! z := fp_op 24 128 op (to_float (o_val l)) (to_float (o_val r)) in Ok (AFloat z)
      else Throw "InvalidOperation"
  | _ => Throw "InvalidOperation"
  end.
(** StringType.cpp:194-232: + and << concatenate. *)
Definition string_binary (op : aop) (l r : obj) : res atomic :=
  match op with
  | OAdd | OShl =>
      if accepts true true r then Ok (AStr (to_std_string (o_val l) ++ to_std_string (o_val r)))
      else Throw "InvalidOperation"
  | _ => Throw "InvalidOperation"
  end.

(** Whether the dispatch function of an operator has a branch for int16 and int64:
    operator_binary_bitand (100-149), bitcomplement (151-198), bitor (200-247),
    shift_left (757-806), shift_right (808-858) have none. *)
Definition has_small_ints (op : aop) : bool :=
  match op with OAdd | OSub | OMul | ODiv | OMod => true | _ => false end.

(** operator_binary_plus, _subtract, _multiply, _divide, _modulo, _bitand, _bitor,
    _bitcomplement, _shift_left, _shift_right, OperatorOverloading.cpp:100-302, 568-916.
    The left object becomes the result (lvalue->assign(tmp)). *)
Definition binary_op (op : aop) (l r : obj) : res obj :=
  match kind_of (o_type l) with
  | KBool | KVoid => Throw "InvalidOperation"
  | KDouble => let! v := double_binary op l r in Ok (mk t_double v)
  | KFloat => let! v := float_binary op l r in Ok (mk t_float v)
  | KInt w =>
      if has_small_ints op || match w with W32 => true | _ => false end then
        let! v := int_binary w op l r in Ok (mk (int_name w) v)
      else Throw "InvalidOperation"
  | KString => let! v := string_binary op l r in Ok (mk t_string v)
  | KOther => Throw "InvalidOperation"
  end.

(** ** Comparison *)
Inductive cmp := CEq | CLt | CLe | CGt | CGe.
Definition z_cmp (c : cmp) (a b : Z) : bool :=
  match c with CEq => a =? b | CLt => a <? b | CLe => a <=? b | CGt => b <? a | CGe => b <=? a end%Z.
Definition fp_cmp (c : cmp) (a b : spec_float) : bool :=
  match SFcompare a b with
  | None => false
  | Some Eq => match c with CEq | CLe | CGe => true | _ => false end
  | Some Lt => match c with CLt | CLe => true | _ => false end
  | Some Gt => match c with CGt | CGe => true | _ => false end
  end.
Definition str_cmp (c : cmp) (a b : str) : bool :=
  match c with
  | CEq => str_eqb a b | CLt => str_ltb a b | CLe => negb (str_ltb b a)
  | CGt => str_ltb b a | CGe => negb (str_ltb a b)
  end.

(** operator_binary_equal, _greater, _greater_equal, _less, _less_equal,
    OperatorOverloading.cpp:304-566, with the comparison operators of BuildInTypes/*.cpp and,
    for other types, Object::operator_equal (Object.cpp:395-408).
    Simplified: objects whose type declares operator methods are not modelled (the tree
    generator calls those as methods); for them comparison other than equality calls a
    method that does not exist and throws UnknownIdentifier (Object.cpp:236-241). *)
Definition compare_op (c : cmp) (l r : obj) : res bool :=
  match kind_of (o_type l) with
  | KBool =>
      match c with
      | CEq => if accepts true true r then Ok (Bool.eqb (is_valid l) (to_bool (o_val r)))
               else Throw "InvalidOperation"
      | _ => Throw "InvalidOperation"
      end
  | KDouble =>
      if accepts true false r then Ok (fp_cmp c (to_double (o_val l)) (to_double (o_val r)))
      else Throw "InvalidOperation"
  | KFloat =>
      if accepts false false r then Ok (fp_cmp c (to_float (o_val l)) (to_float (o_val r)))
      else Throw "InvalidOperation"
  | KInt w =>
      let! a := to_int (o_val l) in
      if accepts true true r then
        let! b := to_int (o_val r) in Ok (z_cmp c (wrap (bits w) a) (wrap (bits w) b))
      else Throw "InvalidOperation"
  | KString =>
      if accepts true true r then Ok (str_cmp c (to_std_string (o_val l)) (to_std_string (o_val r)))
      else Throw "InvalidOperation"
  | KVoid =>
      match c with
      | CEq => let! b := to_int (o_val r) in Ok ((0 =? b)%Z && (o_ref r =? 0)%N)
      | _ => Throw "InvalidOperation"
      end
  | KOther =>
      if o_enum l && o_enum r && str_eqb (o_type l) (o_type r) then
        let! a := to_int (o_val l) in
        let! b := to_int (o_val r) in
        Ok (z_cmp c a b)
      else
        match c with
        | CEq =>
            if o_isref l && o_isref r then Ok (o_ref l =? o_ref r)%N
            else if str_eqb (o_type l) t_anonymous && (str_eqb (o_type r) t_anonymous || str_eqb (o_type r) t_object)
            then Ok (Bool.eqb (is_valid l) (is_valid r))
            else let! a := to_int (o_val l) in
                 let! b := to_int (o_val r) in
                 Ok ((a =? b)%Z && (o_ref l =? o_ref r)%N)
        | _ => Throw "UnknownIdentifier"
        end
  end.

(** ** Assignment and casts *)
(** Object::assign, Object.cpp:87-115: type and value of the right side are taken over. *)
Definition assign (l r : obj) : obj := r.

(** operator_binary_assign, OperatorOverloading.cpp:30-97. [instance_of] is
    rvalue->isInstanceOf(lvalue type), of the inheritance model. *)
Definition assign_op (instance_of : bool) (l r : obj) : res obj :=
  if str_eqb (o_type l) t_anonymous || str_eqb (o_type r) (o_type l) then Ok (assign l r)
  else match kind_of (o_type l) with
       | KBool => Ok (mk t_bool (ABool (to_bool (o_val r))))
       | KDouble => Ok (mk t_double (ADouble (to_double (o_val r))))
       | KFloat => Ok (mk t_float (AFloat (to_float (o_val r))))
       | KInt w => let! z := to_int (o_val r) in Ok (mk (int_name w) (AInt (wrap (bits w) z)))
       | KString => Ok (mk t_string (AStr (to_std_string (o_val r))))
       | KVoid => Ok (mk t_void (AInt 0))
       | KOther =>
           if o_enum l && str_eqb (o_type r) t_int then
             let! z := to_int (o_val r) in
             Ok (Obj (o_type l) (o_atomic l) (o_enum l) (o_isref l) (o_ref l) (AInt z))
           else if negb (is_valid r) then Ok (assign l r)
           else if instance_of then Ok (assign l r)
           else Throw "InvalidOperation"
       end.

(** typecast, TypeCast.cpp:27-90, with the generic type cast constructors of BuildInTypes/*.cpp.
    Simplified: a source that is neither built-in nor an enumeration value goes through
    Object::operator_assign (user code) and is not modelled: the tag is "UserCast". *)
Definition typecast (o : obj) (target : str) : res obj :=
  if bool_decide (target = []) then Throw "TypecastException"
  else
  match kind_of target with
  | KBool => Ok (mk t_bool (ABool (if accepts true true o then to_bool (o_val o) else is_valid o)))
  | KDouble => if accepts true true o then Ok (mk t_double (ADouble (to_double (o_val o)))) else Throw "UserCast"
  | KFloat => if accepts true true o then Ok (mk t_float (AFloat (to_float (o_val o)))) else Throw "UserCast"
  | KInt w => if accepts true true o then
                let! z := to_int (o_val o) in Ok (mk (int_name w) (AInt (wrap (bits w) z)))
              else Throw "UserCast"
  | KString => if accepts true true o then Ok (mk t_string (AStr (to_std_string (o_val o)))) else Throw "UserCast"
  | KVoid => Ok (mk t_void (AInt 0))
  | KOther => if str_eqb target t_enum then Throw "AssertionFailure" else Ok o
  end.

(** ** Unary operators, OperatorOverloading.cpp:918-1208 *)
Inductive uop := UMinus | UPlus | UNot | UInc | UDec.
Definition d_one : spec_float := d_of_int 1.
Definition f_one : spec_float := f_of_int 1.
(** operator_unary_decrement, _increment, _minus of Int*Type.cpp:335-348. *)
Definition int_unary (w : width) (op : uop) (a : Z) : res Z :=
  match op with
  | UMinus => checked (promoted w) (a * -1)
  | UInc => checked (promoted w) (a + 1)
  | UDec => checked (promoted w) (a - 1)
  | _ => Throw "InvalidOperation"
  end.
Definition fp_unary (prec emax : Z) (one : spec_float) (op : uop) (a : spec_float) : res spec_float :=
  match op with
  | UMinus => Ok (SFmul prec emax a (SFopp one))
  | UInc => Ok (SFadd prec emax a one)
  | UDec => Ok (SFsub prec emax a one)
  | _ => Throw "InvalidOperation"
  end.
Definition unary_op (op : uop) (o : obj) : res obj :=
  match op with
  | UNot =>
      (* operator_unary_not, 1146-1193: Int32Type and Int64Type keep the whole value,
         Int16Type cuts it to 16 bits *)
      let! b := match kind_of (o_type o) with
                | KVoid => Ok false
                | KBool | KOther => Ok (is_valid o)
                | KDouble => Ok (fp_nonzero (to_double (o_val o)))
                | KFloat => Ok (fp_nonzero (to_float (o_val o)))
                | KInt w => let! z := to_int (o_val o) in
                            Ok (negb ((match w with W16 => wrap 16 z | _ => z end) =? 0)%Z)
                | KString => Ok (string_to_bool (to_std_string (o_val o)))
                end in
      Ok (mk t_bool (ABool (negb b)))
  | _ =>
      match kind_of (o_type o) with
      | KBool | KString | KVoid | KOther => Throw "InvalidOperation"
      | KDouble => let! d := fp_unary 53 1024 d_one op (to_double (o_val o)) in Ok (mk t_double (ADouble d))
      | KFloat => let! d := fp_unary 24 128 f_one op (to_float (o_val o)) in Ok (mk t_float (AFloat d))
      | KInt w => let! a := to_int (o_val o) in
                  let! z := int_unary w op (wrap (bits w) a) in Ok (mk (int_name w) (AInt z))
      end
  end.

(** ** Binary expressions, TreeInterpreter.cpp:125-225, on evaluated operands *)
Definition aop_of (op : ttype) : option aop :=
  match op with
  | BITAND => Some OAnd | BITCOMPLEMENT => Some OCompl | BITOR => Some OOr
  | MATH_ADDITION => Some OAdd | MATH_DIVIDE => Some ODiv | MATH_MODULO => Some OMod
  | MATH_MULTIPLY => Some OMul | MATH_SUBTRACT => Some OSub
  | OPERATOR_SHIFT_LEFT => Some OShl | OPERATOR_SHIFT_RIGHT => Some OShr
  | _ => None
  end.
(** evaluateBinaryExpression, 125-167: the result object is anonymous, so the final
    operator_binary_assign takes the left object over. *)
Definition eval_binary (op : ttype) (l r : obj) : res obj :=
  match aop_of op with
  | Some o => let! x := binary_op o l r in assign_op false (Obj t_anonymous false false false 0 (AInt 0)) x
  | None => Throw "NotSupported"
  end.
(** evaluateBooleanBinaryExpression, 169-225, both operands evaluated. *)
Definition eval_boolean (op : ttype) (l r : obj) : res obj :=
  let out (b : bool) := mk t_bool (ABool b) in
  let leftResult := is_true l in
  match op with
  | AND => if negb leftResult then Ok (out false) else Ok (out (leftResult && is_true r))
  | NAND => if negb leftResult then Ok (out true) else Ok (out (negb leftResult && negb (is_true r)))
  | NOR => if leftResult then Ok (out false) else Ok (out (negb leftResult || negb (is_true r)))
  | OR => if leftResult then Ok (out true) else Ok (out (leftResult || is_true r))
  | COMPARE_EQUAL => let! b := compare_op CEq l r in Ok (out b)
  | COMPARE_GREATER => let! b := compare_op CGt l r in Ok (out b)
  | COMPARE_GREATER_EQUAL => let! b := compare_op CGe l r in Ok (out b)
  | COMPARE_LESS => let! b := compare_op CLt l r in Ok (out b)
  | COMPARE_LESS_EQUAL => let! b := compare_op CLe l r in Ok (out b)
  | COMPARE_UNEQUAL => let! b := compare_op CEq l r in Ok (out (negb b))
  | _ => Throw "NotSupported"
  end.
End WithIo.
