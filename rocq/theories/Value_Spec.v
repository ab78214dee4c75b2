(** Specification vocabulary for the properties of built-in types and operators (C23-C27). *)
From Coq Require Import Floats.SpecFloat.
From Verif Require Import Base Tok_Model Tok_Proofs TypeTable TypeSys_Model Value_Model.

(** The built-in value types of the language. *)
Definition value_types : list str := [t_bool; t_double; t_float; t_int16; t_int; t_int64; t_string].
Definition integer_types : list str := [t_int16; t_int; t_int64].
Definition floating_types : list str := [t_double; t_float].

(** The result of the first definition for a left type, operator and right type. *)
Fixpoint first_result (ds : list defn) (l : str) (op : ttype) (r : str) : option str :=
  match ds with
  | [] => None
  | (l', op', r', t) :: ds' =>
      if decide (l' = l /\ op' = op /\ r' = r) then Some t else first_result ds' l op r
  end.

(** The operators that combine two values to a value. *)
Definition combining : list ttype :=
  [MATH_ADDITION; MATH_SUBTRACT; MATH_MULTIPLY; MATH_DIVIDE; MATH_MODULO; BITAND; BITOR;
   BITCOMPLEMENT; OPERATOR_SHIFT_LEFT; OPERATOR_SHIFT_RIGHT].
(** The operators that give a truth value. *)
Definition deciding : list ttype :=
  [COMPARE_EQUAL; COMPARE_UNEQUAL; COMPARE_LESS; COMPARE_LESS_EQUAL; COMPARE_GREATER;
   COMPARE_GREATER_EQUAL; AND; NAND; OR; NOR].
(** The combining operators that fail at run time although the table admits them. *)
Definition unsupported (l : str) (op : ttype) : Prop :=
  op = BITCOMPLEMENT \/ (op = BITAND \/ op = BITOR) /\ (l = t_int16 \/ l = t_int64).
(** The operand types for which the table announces another type than the run time gives. *)
Definition promoting (l r : str) : Prop :=
  l ∈ integer_types /\ r ∈ floating_types \/ l = t_int16 /\ (r = t_int \/ r = t_int64).

(** ** Integers *)
Definition type_width (t : str) : Z := if decide (t = t_int16) then 16 else if decide (t = t_int) then 32 else 64.
(** [z] is a value of the integer type [t]. *)
Definition holds (t : str) (z : Z) : Prop := (- 2 ^ (type_width t - 1) <= z < 2 ^ (type_width t - 1))%Z.
(** The mathematical result; none for a division by zero. Division truncates towards zero. *)
Definition exact (op : ttype) (a b : Z) : option Z :=
  match op with
  | MATH_ADDITION => Some (a + b)%Z
  | MATH_SUBTRACT => Some (a - b)%Z
  | MATH_MULTIPLY => Some (a * b)%Z
  | MATH_DIVIDE => if decide (b = 0)%Z then None else Some (Z.quot a b)
  | MATH_MODULO => if decide (b = 0)%Z then None else Some (Z.rem a b)
  | _ => None
  end.
Definition integer_ops : list ttype := [MATH_ADDITION; MATH_SUBTRACT; MATH_MULTIPLY; MATH_DIVIDE; MATH_MODULO].

(** The value of the integer type [t] a machine keeps for an integer: equal up to a multiple of 2^width. *)
Definition kept_as (t : str) (stored z : Z) : Prop :=
  holds t z /\ exists k, (stored = z + k * 2 ^ type_width t)%Z.
(** The unary operators that change a number. *)
Definition exact_unary (op : uop) (a : Z) : option Z :=
  match op with UMinus => Some (- a)%Z | UInc => Some (a + 1)%Z | UDec => Some (a - 1)%Z | _ => None end.
(** A value of the form its type has. *)
Definition proper (t : str) (v : atomic) : Prop :=
  match v with
  | ABool _ => t = t_bool
  | ADouble _ => t = t_double
  | AFloat _ => t = t_float
  | AInt z => t ∈ integer_types /\ holds t z
  | AStr _ => t = t_string
  | ARef _ => False
  end.

(** ** Comparison *)
(** The six comparisons of a strict order [lt]. *)
Definition order_says {A} (lt : A -> A -> Prop) (op : ttype) (a b : A) : Prop :=
  match op with
  | COMPARE_EQUAL => a = b
  | COMPARE_UNEQUAL => a <> b
  | COMPARE_LESS => lt a b
  | COMPARE_LESS_EQUAL => lt a b \/ a = b
  | COMPARE_GREATER => lt b a
  | COMPARE_GREATER_EQUAL => lt b a \/ a = b
  | _ => False
  end.
(** The dictionary order on texts. *)
Inductive before : str -> str -> Prop :=
| before_nil c t : before [] (c :: t)
| before_char c d s t : (N_of_ascii c < N_of_ascii d)%N -> before (c :: s) (d :: t)
| before_same c s t : before s t -> before (c :: s) (c :: t).

(** ** Truth of a text *)
Definition blank_run (n : nat) : str := replicate n " "%char.
Definition lower_or_upper (c d : ascii) : Prop :=
  c = d \/ (N_of_ascii c + 32 = N_of_ascii d)%N /\ (97 <= N_of_ascii d <= 122)%N.
Definition falsy (s : str) : Prop :=
  exists i j core, s = blank_run i ++ core ++ blank_run j /\
    (core = [] \/ core = ["010"%char] \/ Forall2 lower_or_upper core ($"false")).

(** ** Truth and floating-point numbers *)
(** The values that count as true. *)
Definition truthy (v : atomic) : Prop :=
  match v with
  | ABool b => b = true
  | AInt z => z <> 0%Z
  | ADouble x | AFloat x => forall s, x <> S754_zero s
  | AStr s => ~ falsy s
  | ARef r => r <> 0%N
  end.
(** The floating-point number [x] is the integer [z]; zero is the positive zero. *)
Definition is_integer (x : spec_float) (z : Z) : Prop :=
  (z = 0%Z /\ x = S754_zero false) \/
  (exists m k, x = S754_finite (z <? 0)%Z m (- k) /\ (0 <= k)%Z /\ Zpos m = (Z.abs z * 2 ^ k)%Z).
(** The four operations of IEEE 754 with [prec] digits and exponents up to [emax], rounding to nearest even. *)
Definition ieee (prec emax : Z) (op : ttype) (a b : spec_float) : option spec_float :=
  match op with
  | MATH_ADDITION => Some (SFadd prec emax a b)
  | MATH_SUBTRACT => Some (SFsub prec emax a b)
  | MATH_MULTIPLY => Some (SFmul prec emax a b)
  | MATH_DIVIDE => Some (SFdiv prec emax a b)
  | _ => None
  end.

(** The same number written with more digits behind the point. *)
Definition same_number (x y : spec_float) : Prop :=
  x = y \/ exists s m e k, x = S754_finite s m e /\ (0 <= k)%Z /\ exists m', y = S754_finite s m' (e - k) /\ Zpos m' = (Zpos m * 2 ^ k)%Z.
(** ** Numbers written in texts *)
(** Blank, tab, line feed, vertical tab, form feed, carriage return. *)
Definition white (c : ascii) : Prop := c ∈ map ascii_of_nat [9; 10; 11; 12; 13; 32]%nat.
Definition digit_char (d : N) : ascii := ascii_of_N (48 + d).
(** The number the decimal digits [ds] denote. *)
Fixpoint decimal (ds : list N) : Z :=
  match ds with [] => 0 | d :: ds => Z.of_N d * 10 ^ Z.of_nat (length ds) + decimal ds end%Z.
Definition starts_with_digit (s : str) : Prop := exists d s', (d < 10)%N /\ s = digit_char d :: s'.
