(** Specification of what a text does when it runs, independent of tokens, trees, scopes and frames of the implementation.

    The language is a part of slang: methods outside of objects over int, bool and string, with recursion, local variables,
    assignments, loops and output. Its meaning is given by evaluation rules over mathematical integers, truth values and texts.
    Variables are a list of names and values, the latest first. *)
From Coq Require Import DecimalString DecimalZ.
From Verif Require Import Base Text_Model Tok_Model Parse_Model Parse_Spec Decl_Model Decl_Spec Stmt_Model Stmt_Spec.

(** ** Types and values *)
Inductive ty := TInt | TBool | TText.
Inductive val := VInt (z : Z) | VBool (b : bool) | VText (s : str).
Definition type_word (t : ty) : str := match t with TInt => $"int" | TBool => $"bool" | TText => $"string" end.
Global Instance ty_eq_dec : EqDecision ty.
Proof. solve_decision. Defined.
Global Instance val_eq_dec : EqDecision val.
Proof. solve_decision. Defined.

(** The integers of the language have 32 bits. *)
Definition fits (z : Z) : Prop := (-2147483648 <= z <= 2147483647)%Z.
Definition has_type (v : val) (t : ty) : Prop :=
  match v, t with VInt z, TInt => fits z | VBool _, TBool => True | VText _, TText => True | _, _ => False end.

(** Decimal notation, from the standard library; a truth value is printed as 1 or 0. *)
Definition decimal (z : Z) : str := String.list_ascii_of_string (NilZero.string_of_int (Z.to_int z)).
Definition show (v : val) : str :=
  match v with VInt z => decimal z | VBool b => if b then $"1" else $"0" | VText s => s end.
(** The number a text of digits stands for. *)
Definition digit (c : ascii) : option Z :=
  let n := Z.of_nat (nat_of_ascii c) in if (48 <=? n)%Z && (n <=? 57)%Z then Some (n - 48)%Z else None.
Fixpoint number_from (a : Z) (s : str) : option Z :=
  match s with [] => Some a | c :: s => match digit c with Some d => number_from (10 * a + d) s | None => None end end.
Definition number (s : str) : option Z := match s with [] => None | _ => number_from 0 s end.

(** ** Programs *)
(** A method: its type (none for void), its name, its parameters and its statements. *)
Record meth := Meth { me_ret : option ty; me_name : str; me_params : list (ty * str); me_body : list ss }.
Definition program := list meth.
Definition ret_word (r : option ty) : str := match r with Some t => type_word t | None => $"void" end.
Fixpoint find_meth (M : program) (f : str) : option meth :=
  match M with [] => None | m :: M => if bool_decide (f = me_name m) then Some m else find_meth M f end.

(** The declaration of a method in a text: its tokens say its type, its name, its parameters and its statements. *)
Definition declares_method (d : decl) (m : meth) : Prop :=
  exists v l f mu th body,
    d = DMethod v l f (TDecl (ret_word (me_ret m)) [] Modify) (me_name m)
          (map (fun q => Param (snd q) (TDecl (type_word (fst q)) [] Modify) Modify AUnspecified None) (me_params m)) mu th (Some body) /\
    f <> NotImplemented /\ written_list true body (me_body m).
(** [text_of text M]: the text consists of the declarations of the methods [M]. *)
Definition text_of (text : str) (M : program) : Prop :=
  exists ts e raw ds,
    tokenize text = Ok (ts ++ [e]) /\ k_type e = ENDOFFILE /\ sanity_check (ts ++ [e]) = Ok tt /\
    raw_tokens text = Ok raw /\ (forall t, t ∈ raw -> ~ (k_type t = RESERVED_WORD /\ k_text t = $"operator")) /\
    (forall t s, t ∈ ts -> k_text t <> $"operator" ++ s) /\
    declare InSpace ts ds /\ Forall2 declares_method ds M.

(** ** Types of expressions and statements *)
(** The variables in scope with their types: scopes, the innermost first. *)
Definition tenv := list (list (str * ty)).
Fixpoint assoc {A} (l : list (str * A)) (x : str) : option A :=
  match l with [] => None | (y, a) :: l => if bool_decide (x = y) then Some a else assoc l x end.
Definition type_of_name (G : tenv) (x : str) : option ty := assoc (concat G) x.
(** Names that cannot be used for variables and methods. *)
Definition reserved : list str :=
  [$"bool"; $"double"; $"float"; $"int16"; $"int"; $"int64"; $"string"; $"void"].
Definition proper (x : str) : bool := negb (bool_decide (x = [])) && negb (bool_decide (x ∈ reserved)).
Definition named_type_of (w : str) : option ty :=
  if bool_decide (w = $"int") then Some TInt else if bool_decide (w = $"bool") then Some TBool
  else if bool_decide (w = $"string") then Some TText else None.

(** The type of a binary operation. *)
Definition operation_type (k : nat) (op : ttype) (t u : ty) : option ty :=
  match k, op, t, u with
  | 0, (MATH_MULTIPLY | MATH_DIVIDE | MATH_MODULO), TInt, TInt => Some TInt
  | 1, (MATH_ADDITION | MATH_SUBTRACT), TInt, TInt => Some TInt
  | 1, MATH_ADDITION, TText, _ => Some TText
  | 2, (COMPARE_EQUAL | COMPARE_UNEQUAL), _, _ => if bool_decide (t = u) then Some TBool else None
  | 2, (COMPARE_LESS | COMPARE_LESS_EQUAL | COMPARE_GREATER | COMPARE_GREATER_EQUAL), TInt, TInt => Some TBool
  | 2, (COMPARE_LESS | COMPARE_LESS_EQUAL | COMPARE_GREATER | COMPARE_GREATER_EQUAL), TText, TText => Some TBool
  | 3, (AND | OR), TBool, TBool => Some TBool
  | _, _, _, _ => None
  end%nat.
(** The operation of a compound assignment. *)
Definition operation_of (op : ttype) : option (nat * ttype) :=
  match op with
  | ASSIGN_ADDITION => Some (1, MATH_ADDITION)
  | ASSIGN_SUBTRACT => Some (1, MATH_SUBTRACT)
  | ASSIGN_MULTIPLY => Some (0, MATH_MULTIPLY)
  | ASSIGN_DIVIDE => Some (0, MATH_DIVIDE)
  | ASSIGN_MODULO => Some (0, MATH_MODULO)
  | _ => None
  end%nat.

Section Types.
Context (M : program).

Fixpoint typeof (G : tenv) (x : sx) : option ty :=
  match x with
  | XLit CONST_INTEGER s => match number s with Some z => if (z <=? 2147483647)%Z then Some TInt else None | None => None end
  | XLit CONST_BOOLEAN s => Some TBool
  | XLit CONST_LITERAL s => Some TText
  | XName x => type_of_name G x
  | XCall f args =>
      match find_meth M f with
      | Some m =>
          match (fix types l := match l with
                                | [] => Some []
                                | a :: l => match typeof G a, types l with Some t, Some ts => Some (t :: ts) | _, _ => None end
                                end) args with
          | Some ts => if bool_decide (ts = map fst (me_params m)) then me_ret m else None
          | None => None
          end
      | None => None
      end
  | XSign MATH_SUBTRACT _ a => match typeof G a with Some TInt => Some TInt | _ => None end
  | XNot _ a => match typeof G a with Some TBool => Some TBool | _ => None end
  | XStep x (OPERATOR_INCREMENT | OPERATOR_DECREMENT) _ => match type_of_name G x with Some TInt => Some TInt | _ => None end
  | XTern c a b =>
      match typeof G c, typeof G a, typeof G b with
      | Some TBool, Some t, Some u => if bool_decide (t = u) then Some t else None
      | _, _, _ => None
      end
  | XBin k op _ a b => match typeof G a, typeof G b with Some t, Some u => operation_type k op t u | _, _ => None end
  | _ => None
  end.
Fixpoint types (G : tenv) (l : list sx) : option (list ty) :=
  match l with
  | [] => Some []
  | a :: l => match typeof G a, types G l with Some t, Some ts => Some (t :: ts) | _, _ => None end
  end.
(** A call of a method without a value. *)
Definition procedure (G : tenv) (x : sx) : bool :=
  match x with
  | XCall f args =>
      match find_meth M f, types G args with
      | Some m, Some ts => bool_decide (me_ret m = None) && bool_decide (ts = map fst (me_params m))
      | _, _ => false
      end
  | _ => false
  end.

(** A new variable in the innermost scope. *)
Definition introduce (G : tenv) (x : str) (t : ty) : option tenv :=
  match G with
  | l :: G => if proper x && bool_decide (assoc l x = None) then Some (((x, t) :: l) :: G) else None
  | [] => None
  end.
Definition declaration (s : ss) : bool := match s with YDecl _ _ | YVar _ _ _ _ => true | _ => false end.
(** No break that leaves a loop around the statement and, if [ret] is false, no return. *)
Fixpoint steady (ret loop : bool) (s : ss) : bool :=
  match s with
  | YReturn _ => ret
  | YBreak => loop
  | YIf _ a b => steady ret loop a && match b with Some b => steady ret loop b | None => true end
  | YWhile _ b => steady ret true b
  | YFor _ _ _ b => steady ret true b
  | YBlock l => forallb (steady ret loop) l
  | _ => true
  end.

(** The body of a loop: break and continue are meant for it only in a block. *)
Definition in_loop (loop : bool) (s : ss) : bool := match s with YBlock _ => true | _ => loop end.
(** [checks r loop G s]: the variables behind the statement [s] of a method of type [r], if [s] is well typed; [loop] tells
    whether break and continue can be used.
    - A block and the head of a for loop have a scope of their own; the body of an if statement or a loop declares nothing,
      unless it is a block.
    - A for loop is not left by break, see the findings of C29; its head does not return.
    - [var x = e] needs a name that is not in use. *)
Fixpoint checks (r : option ty) (loop : bool) (G : tenv) (s : ss) : option tenv :=
  let body (loop : bool) (G : tenv) (s : ss) : bool :=
    negb (declaration s) && match checks r loop G s with Some _ => true | None => false end in
  match s with
  | YEmpty => Some G
  | YExpr x => match typeof G x with Some _ => Some G | None => if procedure G x then Some G else None end
  | YAssign (XAssign x op a) =>
      match type_of_name G x, typeof G a with
      | Some t, Some u =>
          match op with
          | ASSIGN => if bool_decide (t = u) then Some G else None
          | _ => match operation_of op with
                 | Some (k, o) => if bool_decide (operation_type k o t u = Some t) then Some G else None
                 | None => None
                 end
          end
      | _, _ => None
      end
  | YDecl (NamedType w x None None) e =>
      match named_type_of w with
      | Some t =>
          match introduce G x t with
          | Some G1 =>
              match e with
              | None => Some G1
              | Some e => if bool_decide (typeof G1 e = Some t) then Some G1 else None
              end
          | None => None
          end
      | None => None
      end
  | YVar x None None e =>
      match typeof G e with
      | Some t => if bool_decide (type_of_name G x = None) then introduce G x t else None
      | None => None
      end
  | YAssert e None => if bool_decide (typeof G e = Some TBool) then Some G else None
  | YBreak | YContinue => if loop then Some G else None
  | YPrint e => match typeof G e with Some _ => Some G | None => None end
  | YReturn e =>
      match r, e with
      | None, None => Some G
      | Some t, Some e => if bool_decide (typeof G e = Some t) then Some G else None
      | _, _ => None
      end
  | YIf c a b =>
      if bool_decide (typeof G c = Some TBool) && body loop G a && match b with Some b => body loop G b | None => true end
      then Some G else None
  | YWhile c b => if bool_decide (typeof G c = Some TBool) && body (in_loop loop b) G b then Some G else None
  | YFor (Some i) (Some c) (Some u) b =>
      match checks r false ([] :: G) i with
      | Some G1 =>
          if bool_decide (typeof G1 c = Some TBool) && body false G1 u && body (in_loop loop b) G1 b && steady false false i && steady false false u && steady true false b
          then Some G else None
      | None => None
      end
  | YBlock l =>
      match (fix all G l := match l with
                            | [] => Some G
                            | s :: l => match checks r loop G s with Some G1 => all G1 l | None => None end
                            end) ([] :: G) l with
      | Some _ => Some G
      | None => None
      end
  | _ => None
  end.
Fixpoint checks_all (r : option ty) (loop : bool) (G : tenv) (l : list ss) : option tenv :=
  match l with
  | [] => Some G
  | s :: l => match checks r loop G s with Some G1 => checks_all r loop G1 l | None => None end
  end.
(** A statement that ends with a return of a value in every case. *)
Fixpoint returns (s : ss) : bool :=
  match s with
  | YReturn (Some _) => true
  | YIf _ a (Some b) => returns a && returns b
  | YBlock l => (fix last l := match l with [] => false | [s] => returns s | _ :: l => last l end) l
  | _ => false
  end.
(** A method is well typed in the scope of its parameters. If it has a value, it ends with a return in every case. *)
Definition method_ok (m : meth) : Prop :=
  let ps := map (fun p => (snd p, fst p)) (me_params m) in
  proper (me_name m) = true /\ NoDup (map fst ps) /\ Forall (fun p => proper (fst p) = true) ps /\
  (exists G, checks_all (me_ret m) false [ps] (me_body m) = Some G) /\
  (me_ret m <> None -> returns (YBlock (me_body m)) = true).
Definition well_typed : Prop := NoDup (map me_name M) /\ Forall method_ok M.
End Types.

(** ** Evaluation *)
Definition env := list (str * val).
(** Assignment to the latest variable of a name *)
Fixpoint update (ρ : env) (x : str) (v : val) : env :=
  match ρ with [] => [] | (y, w) :: ρ => if bool_decide (x = y) then (y, v) :: ρ else (y, w) :: update ρ x v end.
(** What is left of the variables [ρ'] when those declared since [ρ] are gone *)
Definition leave (ρ ρ' : env) : env := drop (length ρ' - length ρ) ρ'.
Definition default (t : ty) : val := match t with TInt => VInt 0 | TBool => VBool false | TText => VText [] end.

(** Lexicographic order of texts *)
Inductive before : str -> str -> Prop :=
| before_nil c s : before [] (c :: s)
| before_char c d s t : (nat_of_ascii c < nat_of_ascii d)%nat -> before (c :: s) (d :: t)
| before_same c s t : before s t -> before (c :: s) (c :: t).
Inductive below : val -> val -> Prop :=
| below_int a b : (a < b)%Z -> below (VInt a) (VInt b)
| below_text s t : before s t -> below (VText s) (VText t).

(** The values of operations. There is none if a result does not fit, and none for a division by zero. *)
Inductive combine : ttype -> val -> val -> val -> Prop :=
| c_add a b : fits (a + b) -> combine MATH_ADDITION (VInt a) (VInt b) (VInt (a + b))
| c_sub a b : fits (a - b) -> combine MATH_SUBTRACT (VInt a) (VInt b) (VInt (a - b))
| c_mul a b : fits (a * b) -> combine MATH_MULTIPLY (VInt a) (VInt b) (VInt (a * b))
| c_div a b : b <> 0%Z -> fits (Z.quot a b) -> combine MATH_DIVIDE (VInt a) (VInt b) (VInt (Z.quot a b))
| c_mod a b : b <> 0%Z -> fits (Z.quot a b) -> combine MATH_MODULO (VInt a) (VInt b) (VInt (Z.rem a b))
| c_join s v : combine MATH_ADDITION (VText s) v (VText (s ++ show v))
| c_equal u w : combine COMPARE_EQUAL u w (VBool (bool_decide (u = w)))
| c_unequal u w : combine COMPARE_UNEQUAL u w (VBool (negb (bool_decide (u = w))))
| c_less u w b : (b = true <-> below u w) -> combine COMPARE_LESS u w (VBool b)
| c_less_equal u w b : (b = true <-> ~ below w u) -> combine COMPARE_LESS_EQUAL u w (VBool b)
| c_greater u w b : (b = true <-> below w u) -> combine COMPARE_GREATER u w (VBool b)
| c_greater_equal u w b : (b = true <-> ~ below u w) -> combine COMPARE_GREATER_EQUAL u w (VBool b).

(** How a statement ends. *)
Inductive outcome := Onward | Broken | Continued | Returned (v : option val).

Section Eval.
Context (M : program).

(** [value ρ x v ρ' o]: in [ρ] the expression [x] has the value [v], leaves the variables [ρ'] and prints [o].
    [calls f vs r o]: the method [f] with the arguments [vs] ends with the value [r] (none for void) and prints [o].
    [does ρ s k ρ' o]: the statement [s] ends with [k], leaves the variables [ρ'] and prints [o]. *)
Inductive value : env -> sx -> val -> env -> list str -> Prop :=
| v_int ρ s z : number s = Some z -> value ρ (XLit CONST_INTEGER s) (VInt z) ρ []
| v_bool ρ s : value ρ (XLit CONST_BOOLEAN s) (VBool (bool_decide (s = $"true"))) ρ []
| v_text ρ s : value ρ (XLit CONST_LITERAL s) (VText s) ρ []
| v_name ρ x v : assoc ρ x = Some v -> value ρ (XName x) v ρ []
| v_call ρ f args vs v ρ' o o' : values ρ args vs ρ' o -> calls f vs (Some v) o' -> value ρ (XCall f args) v ρ' (o ++ o')
| v_minus ρ s a z ρ' o : value ρ a (VInt z) ρ' o -> fits (- z) -> value ρ (XSign MATH_SUBTRACT s a) (VInt (- z)) ρ' o
| v_not ρ s a b ρ' o : value ρ a (VBool b) ρ' o -> value ρ (XNot s a) (VBool (negb b)) ρ' o
| v_increment ρ x s z : assoc ρ x = Some (VInt z) -> fits (z + 1) ->
    value ρ (XStep x OPERATOR_INCREMENT s) (VInt (z + 1)) (update ρ x (VInt (z + 1))) []
| v_decrement ρ x s z : assoc ρ x = Some (VInt z) -> fits (z - 1) ->
    value ρ (XStep x OPERATOR_DECREMENT s) (VInt (z - 1)) (update ρ x (VInt (z - 1))) []
| v_condition ρ c a b t v ρ1 ρ2 o o' : value ρ c (VBool t) ρ1 o -> value ρ1 (if t then a else b) v ρ2 o' ->
    value ρ (XTern c a b) v ρ2 (o ++ o')
| v_and_false ρ k s a b ρ1 o : value ρ a (VBool false) ρ1 o -> value ρ (XBin k AND s a b) (VBool false) ρ1 o
| v_and ρ k s a b t ρ1 ρ2 o o' : value ρ a (VBool true) ρ1 o -> value ρ1 b (VBool t) ρ2 o' ->
    value ρ (XBin k AND s a b) (VBool t) ρ2 (o ++ o')
| v_or_true ρ k s a b ρ1 o : value ρ a (VBool true) ρ1 o -> value ρ (XBin k OR s a b) (VBool true) ρ1 o
| v_or ρ k s a b t ρ1 ρ2 o o' : value ρ a (VBool false) ρ1 o -> value ρ1 b (VBool t) ρ2 o' ->
    value ρ (XBin k OR s a b) (VBool t) ρ2 (o ++ o')
| v_operation ρ k op s a b u w v ρ1 ρ2 o o' : value ρ a u ρ1 o -> value ρ1 b w ρ2 o' -> combine op u w v ->
    value ρ (XBin k op s a b) v ρ2 (o ++ o')
with values : env -> list sx -> list val -> env -> list str -> Prop :=
| vs_nil ρ : values ρ [] [] ρ []
| vs_cons ρ a l v vs ρ1 ρ2 o o' : value ρ a v ρ1 o -> values ρ1 l vs ρ2 o' -> values ρ (a :: l) (v :: vs) ρ2 (o ++ o')
with calls : str -> list val -> option val -> list str -> Prop :=
| calls_body f vs m k r ρ o : find_meth M f = Some m -> length vs = length (me_params m) ->
    does_all (zip (map snd (me_params m)) vs) (me_body m) k ρ o ->
    k = Returned r \/ (k = Onward /\ r = None) -> calls f vs r o
with does : env -> ss -> outcome -> env -> list str -> Prop :=
| do_empty ρ : does ρ YEmpty Onward ρ []
| do_expr ρ x v ρ' o : value ρ x v ρ' o -> does ρ (YExpr x) Onward ρ' o
| do_call ρ f args vs r ρ' o o' : values ρ args vs ρ' o -> calls f vs r o' -> does ρ (YExpr (XCall f args)) Onward ρ' (o ++ o')
| do_assign ρ x a v ρ' o : value ρ a v ρ' o -> does ρ (YAssign (XAssign x ASSIGN a)) Onward (update ρ' x v) o
| do_compound ρ x op k op' a u w v ρ' o : operation_of op = Some (k, op') -> assoc ρ x = Some u -> value ρ a w ρ' o ->
    combine op' u w v -> does ρ (YAssign (XAssign x op a)) Onward (update ρ' x v) o
| do_declare ρ d t : named_type_of (nt_type d) = Some t -> does ρ (YDecl d None) Onward ((nt_name d, default t) :: ρ) []
(* the new variable is there, with the default value of its type, when its first value is computed *)
| do_initialise ρ d t e v ρ' o : named_type_of (nt_type d) = Some t -> value ((nt_name d, default t) :: ρ) e v ρ' o ->
    does ρ (YDecl d (Some e)) Onward (update ρ' (nt_name d) v) o
| do_var ρ x m a e v ρ' o : value ρ e v ρ' o -> does ρ (YVar x m a e) Onward ((x, v) :: ρ') o
| do_assert ρ e m ρ' o : value ρ e (VBool true) ρ' o -> does ρ (YAssert e m) Onward ρ' o
| do_break ρ : does ρ YBreak Broken ρ []
| do_continue ρ : does ρ YContinue Continued ρ []
| do_print ρ e v ρ' o : value ρ e v ρ' o -> does ρ (YPrint e) Onward ρ' (o ++ [show v])
| do_return ρ : does ρ (YReturn None) (Returned None) ρ []
| do_return_value ρ e v ρ' o : value ρ e v ρ' o -> does ρ (YReturn (Some e)) (Returned (Some v)) ρ' o
| do_then ρ c a b k ρ1 ρ2 o o' : value ρ c (VBool true) ρ1 o -> does ρ1 a k ρ2 o' -> does ρ (YIf c a b) k ρ2 (o ++ o')
| do_else ρ c a b k ρ1 ρ2 o o' : value ρ c (VBool false) ρ1 o -> does ρ1 b k ρ2 o' -> does ρ (YIf c a (Some b)) k ρ2 (o ++ o')
| do_nothing ρ c a ρ1 o : value ρ c (VBool false) ρ1 o -> does ρ (YIf c a None) Onward ρ1 o
| do_while ρ c b k ρ' o : rounds ρ c None b k ρ' o -> does ρ (YWhile c b) k ρ' o
| do_for ρ i c u b k ρ1 ρ2 o o' : does ρ i Onward ρ1 o -> rounds ρ1 c (Some u) b k ρ2 o' ->
    does ρ (YFor (Some i) (Some c) (Some u) b) k (leave ρ ρ2) (o ++ o')
| do_block ρ l k ρ' o : does_all ρ l k ρ' o -> does ρ (YBlock l) k (leave ρ ρ') o
(* a list of statements goes on as long as they end normally *)
with does_all : env -> list ss -> outcome -> env -> list str -> Prop :=
| all_nil ρ : does_all ρ [] Onward ρ []
| all_next ρ s l k ρ1 ρ2 o o' : does ρ s Onward ρ1 o -> does_all ρ1 l k ρ2 o' -> does_all ρ (s :: l) k ρ2 (o ++ o')
| all_stop ρ s l k ρ1 o : does ρ s k ρ1 o -> k <> Onward -> does_all ρ (s :: l) k ρ1 o
(* the rounds of a loop with condition [c], body [b] and, behind the body, the statement [u] *)
with rounds : env -> sx -> option ss -> ss -> outcome -> env -> list str -> Prop :=
| rounds_end ρ c u b ρ1 o : value ρ c (VBool false) ρ1 o -> rounds ρ c u b Onward ρ1 o
| rounds_break ρ c u b ρ1 ρ2 o o' : value ρ c (VBool true) ρ1 o -> does ρ1 b Broken ρ2 o' -> rounds ρ c u b Onward ρ2 (o ++ o')
| rounds_return ρ c u b r ρ1 ρ2 o o' : value ρ c (VBool true) ρ1 o -> does ρ1 b (Returned r) ρ2 o' ->
    rounds ρ c u b (Returned r) ρ2 (o ++ o')
| rounds_while ρ c b k k' ρ1 ρ2 ρ3 o1 o2 o3 : value ρ c (VBool true) ρ1 o1 -> does ρ1 b k ρ2 o2 -> k = Onward \/ k = Continued ->
    rounds ρ2 c None b k' ρ3 o3 -> rounds ρ c None b k' ρ3 (o1 ++ o2 ++ o3)
| rounds_for ρ c u b k k' ρ1 ρ2 ρ3 ρ4 o1 o2 o3 o4 : value ρ c (VBool true) ρ1 o1 -> does ρ1 b k ρ2 o2 ->
    k = Onward \/ k = Continued -> does ρ2 u Onward ρ3 o3 -> rounds ρ3 c (Some u) b k' ρ4 o4 ->
    rounds ρ c (Some u) b k' ρ4 (o1 ++ o2 ++ o3 ++ o4).
End Eval.
