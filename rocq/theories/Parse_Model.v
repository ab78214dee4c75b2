(** Model of the reader of expressions and blocks:
    Projects/Core/Core/AST/TreeGenerator.cpp, Common/Utils.cpp, Designtime/Parser/Parser.cpp,
    Designtime/Parser/SanityChecker.cpp, and of the printer AST/PrintVisitor.cpp.

    A token iterator is the list of tokens from its position to the end of the token list;
    reading a token of the empty list is reading past the end, undefined behaviour.

    What is simplified throughout:
    - a name resolves through [pe_name] to a variable, a method or a type, and an argument
      list to an overload through [pe_method]; the look-up itself is Scope_Model;
    - member access [a.b], subscripts, ranges [a..b], the keywords copy, new and streval,
      prototype arguments and ++/-- on objects end in the outcome "not modelled";
    - const-ness and access checks are left out. *)
From Coq Require Import Floats.SpecFloat.
From Verif Require Import Base Text_Model Tok_Model TypeTable TypeSys_Model Value_Model.

(** ** Blocks and brackets *)

(** expect, Common/Utils.cpp:16-21 *)
Definition expect (ty : ttype) (ts : list token) : res unit :=
  match ts with
  | [] => UB
  | t :: _ => if ttype_eqb (k_type t) ty then Ok tt else Throw "SyntaxError"
  end.

(** findNext, Common/Utils.cpp:23-37, with its default terminator NIL *)
Fixpoint find_next (start : list token) (ty : ttype) (ts : list token) : res (list token) :=
  match ts with
  | [] => UB
  | t :: r => if ttype_eqb (k_type t) ty then Ok ts
              else if ttype_eqb (k_type t) NIL then Ok start
              else find_next start ty r
  end.

(** findNextBalancedBracket and findNextBalancedParenthesis, Common/Utils.cpp:39-66 and 96-123
    (the two functions differ in the bracket types [op] and [cl] only), without the error
    limit, which no caller sets. [n] is openBrackets, [start] the initial position. *)
Fixpoint find_balanced (op cl term : ttype) (start : list token) (n : Z) (ts : list token) : res (list token) :=
  match ts with
  | [] => UB
  | t :: r =>
      let ty := k_type t in
      if negb (ttype_eqb ty cl) || negb (n =? 0)%Z then
        let n1 := if ttype_eqb ty op then (n + 1)%Z else n in
        let n2 := if ttype_eqb ty cl then (n1 - 1)%Z else n1 in
        if ttype_eqb ty term then Ok start
        else find_balanced op cl term start n2 r
      else Ok ts
  end.
Definition find_parenthesis (ts : list token) : res (list token) :=
  find_balanced PARENTHESIS_OPEN PARENTHESIS_CLOSE NIL ts 0 ts.
Definition find_bracket (ts : list token) : res (list token) :=
  find_balanced BRACKET_OPEN BRACKET_CLOSE NIL ts 0 ts.

(** findNextBalancedCurlyBracket, Common/Utils.cpp:68-94, without the error limit. The empty
    list is the [end] the callers pass. *)
Fixpoint find_curly (term : ttype) (n : Z) (ts : list token) : res (list token) :=
  match ts with
  | [] => if (n =? 0)%Z then Ok [] else UB
  | t :: r =>
      let ty := k_type t in
      if negb (ttype_eqb ty BRACKET_CURLY_CLOSE) || negb (n =? 0)%Z then
        let n1 := if ttype_eqb ty BRACKET_CURLY_OPEN then (n + 1)%Z else n in
        let n2 := if ttype_eqb ty BRACKET_CURLY_CLOSE then (n1 - 1)%Z else n1 in
        if (n2 =? 0)%Z && ttype_eqb ty term then Ok ts
        else find_curly term n2 r
      else Ok ts
  end.

(** TreeGenerator::collectScopeTokens, AST/TreeGenerator.cpp:47-60: the collected tokens and
    the new position. [go] is the copying loop, which stops in front of [bodyEnd]; positions
    are compared through the number of tokens behind them. *)
Fixpoint copy_until (stop : nat) (ts : list token) : res (list token * list token) :=
  match ts with
  | [] => UB
  | _ :: r => if (length ts =? stop)%nat then Ok ([], r)
              else match r with
                   | [] => UB
                   | u :: _ => let! x := copy_until stop r in Ok (u :: fst x, snd x)
                   end
  end.
Definition collect_scope (ts : list token) : res (list token * list token) :=
  let! _ := expect BRACKET_CURLY_OPEN ts in
  let! close := find_curly BRACKET_CURLY_CLOSE 0 ts in
  let! x := copy_until (S (length close)) ts in
  let! _ := expect BRACKET_CURLY_CLOSE (snd x) in
  Ok x.

(** Parser::collectScopeTokens, Designtime/Parser/Parser.cpp:280-302 *)
Fixpoint collect_loop (n : Z) (ts : list token) : res (list token * list token) :=
  match ts with
  | [] => UB
  | t :: r =>
      let ty := k_type t in
      if negb (ttype_eqb ty BRACKET_CURLY_CLOSE) || (0 <? n)%Z then
        let n1 := if ttype_eqb ty BRACKET_CURLY_OPEN then (n + 1)%Z else n in
        let n2 := if ttype_eqb ty BRACKET_CURLY_CLOSE then (n1 - 1)%Z else n1 in
        let! x := collect_loop n2 r in Ok (t :: fst x, snd x)
      else Ok ([], ts)
  end.
Definition parser_collect_scope (ts : list token) : res (list token * list token) :=
  let! _ := expect BRACKET_CURLY_OPEN ts in
  match ts with [] => UB | _ :: r => collect_loop 0 r end.

(** ** SanityChecker, Designtime/Parser/SanityChecker.cpp:17-108 *)
Fixpoint count_brackets (op cl : ttype) (n : Z) (ts : list token) : Z :=
  match ts with
  | [] => n
  | t :: r => let n1 := if ttype_eqb (k_type t) op then (n + 1)%Z else n in
              let n2 := if ttype_eqb (k_type t) cl then (n1 - 1)%Z else n1 in
              count_brackets op cl n2 r
  end.
Fixpoint quotes_open (q : bool) (ts : list token) : bool :=
  match ts with
  | [] => q
  | t :: r => quotes_open (if ttype_eqb (k_type t) QUOTATION_DOUBLE then negb q else q) r
  end.
(** checkBrackets, checkCurlyBrackets, checkParenthesis, checkQuotations, process. The order of
    the four checks only matters for the text of the message. *)
Definition sanity_check (ts : list token) : res unit :=
  if negb (count_brackets BRACKET_OPEN BRACKET_CLOSE 0 ts =? 0)%Z then Throw "SanityCheckError"
  else if negb (count_brackets BRACKET_CURLY_OPEN BRACKET_CURLY_CLOSE 0 ts =? 0)%Z then Throw "SanityCheckError"
  else if negb (count_brackets PARENTHESIS_OPEN PARENTHESIS_CLOSE 0 ts =? 0)%Z then Throw "SanityCheckError"
  else if quotes_open false ts then Throw "SanityCheckError"
  else Ok tt.

(** ** Expressions *)

(** What a name stands for, TreeGenerator::resolve, AST/TreeGenerator.cpp:2284-2382: an object
    with its type and whether that is atomic, a method, a type. *)
Inductive symk := KVar (t : str) (atomic : bool) | KMethod | KType (t : str) (atomic : bool).

Record penv := PEnv {
  pe_table : table;                            (* the type system, Repository::getType *)
  pe_name : str -> option symk;                (* names in scope *)
  pe_method : str -> list str -> option str;   (* method and argument types to result type *)
  pe_opm : str -> str -> str -> option str;    (* operator method: left type, operator, right type *)
  pe_type : str -> bool;                       (* Repository::findBluePrintObject *)
  pe_io : fio
}.

(** Expression nodes, AST/Expression.h, with the result type each node computes. The node of
    [!=] is [PNot] over [==] with an empty operator text. *)
Inductive pexpr :=
| PLit (v : obj)
| PSym (x : str) (k : symk)
| PBin (op : ttype) (s : str) (a b : pexpr) (t : str)
| PBool (op : ttype) (s : str) (a b : pexpr)
| PMeth (a : pexpr) (s : str) (b : pexpr) (t : str)
| PUn (op : ttype) (s : str) (lvalue : bool) (a : pexpr)
| PNot (s : str) (a : pexpr)
| PTern (c a b : pexpr)
| PElvis (c b : pexpr)
| PCast (t : str) (a : pexpr)
| PTypeid (a : pexpr)
| PIs (a : pexpr) (t : str)
| PAssign (x : str) (k : symk) (a : pexpr) (t : str)
| PCall (f : str) (args : list pexpr) (t : str).

Definition sym_type (k : symk) : str := match k with KVar t _ => t | KMethod => [] | KType t _ => t end.
Definition sym_atomic (k : symk) : bool := match k with KVar _ a => a | KMethod => false | KType _ a => a end.

(** Expression::getResultType *)
Fixpoint ptype (e : pexpr) : str :=
  match e with
  | PLit v => o_type v
  | PSym _ k => sym_type k
  | PBin _ _ _ _ t => t
  | PBool _ _ _ _ => t_bool
  | PMeth _ _ _ t => t
  | PUn _ _ _ a => ptype a
  | PNot _ _ => t_bool
  | PTern _ a _ => ptype a
  | PElvis c _ => ptype c
  | PCast t _ => t
  | PTypeid _ => t_string
  | PIs _ _ => t_bool
  | PAssign _ _ _ t => t
  | PCall _ _ t => t
  end.

(** The symbol an expression node is, if any: dynamic_cast<SymbolExpression*>. *)
Definition psym (e : pexpr) : option symk := match e with PSym _ k => Some k | _ => None end.

(** Literal tokens, parseTerm 513-545. *)
Definition literal (io : fio) (ty : ttype) (s : str) : option obj :=
  match ty with
  | CONST_BOOLEAN => Some (mk t_bool (ABool (str_eqb s ($"true"))))
  | CONST_DOUBLE => Some (mk t_double (ADouble (parse_double io s)))
  | CONST_FLOAT => Some (mk t_float (AFloat (parse_float io s)))
  | CONST_INTEGER => let z := string_to_int s in
                     Some (mk (if in_range 32 z then t_int else t_int64) (AInt z))
  | CONST_LITERAL => Some (mk t_string (AStr s))
  | _ => None
  end.

(** The operator sets of parseFactor, parseExpression, parseCondition and expression
    (TreeGenerator.cpp:386-389, 334-341, 253-261, 67-70): levels 0 to 3. *)
Definition level_ops (k : nat) : list ttype :=
  match k with
  | 0 => [MATH_DIVIDE; MATH_MODULO; MATH_MULTIPLY]
  | 1 => [BITAND; BITCOMPLEMENT; BITOR; MATH_ADDITION; MATH_SUBTRACT; OPERATOR_SHIFT_LEFT; OPERATOR_SHIFT_RIGHT]
  | 2 => [COMPARE_EQUAL; COMPARE_EQUAL_CONTENT; COMPARE_GREATER; COMPARE_GREATER_EQUAL; COMPARE_LESS;
          COMPARE_LESS_EQUAL; COMPARE_UNEQUAL; COMPARE_UNEQUAL_CONTENT]
  | _ => [AND; NAND; NOR; OR]
  end%nat.
Definition is_op (k : nat) (ty : ttype) : bool := existsb (ttype_eqb ty) (level_ops k).

(** parseFactor 392-425 and parseExpression 344-377 *)
Definition arith_node (env : penv) (t : token) (a b : pexpr) : res pexpr :=
  let! ty := get_type (pe_table env) (ptype a) (k_type t) (ptype b) in
  match psym a with
  | Some k =>
      if sym_atomic k then Ok (PBin (k_type t) (k_text t) a b ty)
      else if negb (pe_type env (ptype a)) then Throw "SyntaxError"
      else match pe_opm env (ptype a) (k_text t) (ptype b) with
           | Some r => Ok (PMeth a (k_text t) b r)
           | None => Throw "UnknownIdentifier"
           end
  | None => Ok (PBin (k_type t) (k_text t) a b ty)
  end.

(** parseCondition 264-325 *)
Definition cmp_node (env : penv) (t : token) (a b : pexpr) : res pexpr :=
  let op := k_type t in
  let content := ttype_eqb op COMPARE_EQUAL_CONTENT || ttype_eqb op COMPARE_UNEQUAL_CONTENT in
  let unequal := ttype_eqb op COMPARE_UNEQUAL || ttype_eqb op COMPARE_UNEQUAL_CONTENT in
  let op' := if content || unequal then COMPARE_EQUAL else op in
  let s' := if content || unequal then $"==" else k_text t in
  let! _ := get_type (pe_table env) (ptype a) op' (ptype b) in
  if negb (pe_type env (ptype a)) then Throw "SyntaxError"
  else
    let! c := match psym a, pe_opm env (ptype a) s' (ptype b) with
              | Some _, Some r => Ok (PMeth a s' b r)
              | _, _ => if content then Throw "SyntaxError" else Ok (PBool op' s' a b)
              end in
    Ok (if unequal then PNot [] c else c).

(** expression 73-79 *)
Definition node (env : penv) (k : nat) (t : token) (a b : pexpr) : res pexpr :=
  match k with
  | 0 | 1 => arith_node env t a b
  | 2 => cmp_node env t a b
  | _ => Ok (PBool (k_type t) (k_text t) a b)
  end%nat.

(** parseInfix 436-447: prefix + and - are checked against the type system, ! is not. *)
Definition sign_node (env : penv) (t : token) (a : pexpr) : res pexpr :=
  let! _ := get_type (pe_table env) (ptype a) (k_type t) t_unary in
  Ok (PUn (k_type t) (k_text t) false a).

(** processTernaryOperator 893-896 *)
Definition ternary_node (c : pexpr) (a : option pexpr) (b : pexpr) : res pexpr :=
  let first := match a with Some a => a | None => c end in
  if str_eqb (ptype first) (ptype b)
  then Ok (match a with Some a => PTern c a b | None => PElvis c b end)
  else Throw "SyntaxError".

(** process_cast 1060-1094: the type check of cast<T>(e) *)
Definition cast_node (env : penv) (t : str) (a : pexpr) : res pexpr :=
  let! _ := get_type (pe_table env) t TYPECAST (ptype a) in Ok (PCast t a).

(** process_method 1610-1690: overload resolution of a call *)
Definition call_node (env : penv) (f : str) (args : list pexpr) : res pexpr :=
  match pe_method env f (map ptype args) with
  | Some t => Ok (PCall f args t)
  | None => Throw "UnknownIdentifier"
  end.

(** process_incdecrement 1478-1507: x++ and x-- on a name *)
Definition step_node (t : token) (x : str) (k : symk) : res pexpr :=
  if sym_atomic k then Ok (PUn (k_type t) (k_text t) true (PSym x k)) else Throw "not modelled".

(** The arithmetic operator a compound assignment stands for, 971-981 *)
Definition compound (ty : ttype) : option (ttype * str) :=
  match ty with
  | ASSIGN_ADDITION => Some (MATH_ADDITION, $"+")
  | ASSIGN_BITAND => Some (BITAND, $"&")
  | ASSIGN_BITCOMPLEMENT => Some (BITCOMPLEMENT, $"~")
  | ASSIGN_BITOR => Some (BITOR, $"|")
  | ASSIGN_DIVIDE => Some (MATH_DIVIDE, $"/")
  | ASSIGN_MODULO => Some (MATH_MODULO, $"%")
  | ASSIGN_MULTIPLY => Some (MATH_MULTIPLY, $"*")
  | ASSIGN_SUBTRACT => Some (MATH_SUBTRACT, $"-")
  | _ => None
  end.

(** process_assignment_expression 952-1036 after the right-hand side [b] has been read. *)
Definition assign_node (env : penv) (t : token) (x : str) (k : symk) (b : pexpr) : res pexpr :=
  let! b' :=
    if ttype_eqb (k_type t) ASSIGN then Ok b
    else match compound (k_type t) with
         | None => Throw "SyntaxError"
         | Some (op, s) =>
             if sym_atomic k then
               let! ty := get_type (pe_table env) (sym_type k) op (ptype b) in
               Ok (PBin op s (PSym x k) b ty)
             else if negb (pe_type env (sym_type k)) then Throw "SyntaxError"
             else let! _ := get_type (pe_table env) (sym_type k) op (ptype b) in
                  match pe_opm env (sym_type k) s (ptype b) with
                  | Some r => Ok (PMeth (PSym x k) s b r)
                  | None => Throw "UnknownIdentifier"
                  end
         end in
  if sym_atomic k || str_eqb (sym_type k) (ptype b') then
    let! ty := get_type (pe_table env) (sym_type k) ASSIGN (ptype b') in
    Ok (PAssign x k b' ty)
  else if negb (pe_type env (sym_type k)) then Throw "SyntaxError"
  else match pe_opm env (sym_type k) ($"=") (ptype b') with
       | Some r => Ok (PMeth (PSym x k) ($"=") b' r)
       | None => Throw "UnknownIdentifier"
       end.

(** resolveWithThis / resolveWithExceptions, 2284-2382 and 2456-2481: the name at the position
    and the position behind it; the token behind it is inspected too. *)
Definition resolve_name (env : penv) (ts : list token) : res (symk * list token) :=
  match ts with
  | [] => UB
  | t :: r => match pe_name env (k_text t) with
              | None => Throw "InvalidSymbol"
              | Some k => match r with
                          | [] => UB
                          | u :: _ => if ttype_eqb (k_type u) OPERATOR_SCOPE then Throw "not modelled" else Ok (k, r)
                          end
              end
  end.
(** A name that has to be a type, process_cast 1065-1071. *)
Definition type_name (env : penv) (ts : list token) : res (str * list token) :=
  let! x := resolve_name env ts in
  match fst x with KType ty _ => Ok (ty, snd x) | _ => Throw "InvalidSymbol" end.

(** The argument loop of process_method, 1580-1598. [tmp] and [closed] are positions in one
    std::list; std::distance between them is undefined when [closed] is in front of [tmp].
    [m] bounds the number of rounds. *)
Fixpoint args_loop (ex : list token -> res (pexpr * list token)) (m : nat) (closed tmp : list token)
    : res (list pexpr) :=
  match m with
  | O => Fuel
  | S m =>
      if (length tmp =? length closed)%nat then Ok []
      else
        let! x := ex tmp in
        let '(a, tmp1) := x in
        if (length tmp1 <? length closed)%nat then UB
        else if (length tmp1 =? length closed)%nat then Ok [a]
        else
          let! tmp2 := find_next tmp1 COMMA tmp1 in
          if (length tmp2 <? length closed)%nat then UB
          else match tmp2 with
               | [] => UB
               | _ :: tmp3 => let! l := args_loop ex m closed tmp3 in Ok (a :: l)
               end
  end.

(** Token::category comparisons *)
Definition cat_constant (t : token) : bool := match k_cat t with Constant => true | _ => false end.
Definition cat_assignment (t : token) : bool := match k_cat t with Assignment => true | _ => false end.

Definition ty_in (ty : ttype) (l : list ttype) : bool := existsb (ttype_eqb ty) l.

(** Which function of the recursive descent is running. *)
Inductive what :=
| WLevel (k : nat)               (* parseFactor, parseExpression, parseCondition, expression *)
| WLoop (k : nat) (a : pexpr)    (* their loops *)
| WInfix                         (* parseInfix *)
| WPostfix (a : pexpr)           (* parsePostfix *)
| WRepeat (a : pexpr)            (* the loop of parsePostfix *)
| WTerm                          (* parseTerm *)
| WName (x : str) (k : symk)     (* process_identifier behind the resolved name *)
| WWord (s : str).               (* process_expression_keyword behind the keyword *)

Fixpoint parse (env : penv) (n : nat) (w : what) (ts : list token) : res (pexpr * list token) :=
  match n with
  | O => Fuel
  | S n =>
      match w with
      (* 62-64, 248-250, 329-331, 381-383 *)
      | WLevel k =>
          let! x := parse env n (match k with O => WInfix | S j => WLevel j end) ts in
          parse env n (WLoop k (fst x)) (snd x)
      | WLoop k a =>
          match ts with
          | [] => UB
          | t :: r =>
              if is_op k (k_type t) then
                let! x := parse env n (match k with O => WInfix | S j => WLevel j end) r in
                let! c := node env k t a (fst x) in
                parse env n (WLoop k c) (snd x)
              else Ok (a, ts)
          end
      (* 429-457 *)
      | WInfix =>
          match ts with
          | [] => UB
          | t :: r =>
              let! x :=
                if ty_in (k_type t) [MATH_ADDITION; MATH_SUBTRACT] then
                  let! y := parse env n WTerm r in
                  let! e := sign_node env t (fst y) in Ok (e, snd y)
                else if ttype_eqb (k_type t) OPERATOR_NOT then
                  let! y := parse env n WTerm r in Ok (PNot (k_text t) (fst y), snd y)
                else parse env n WTerm ts in
              parse env n (WPostfix (fst x)) (snd x)
          end
      (* 459-475, 716-731, 870-899 *)
      | WPostfix a =>
          match ts with
          | [] => UB
          | t :: r =>
              if ttype_eqb (k_type t) OPERATOR_IS then
                let! x := resolve_name env r in Ok (PIs a (sym_type (fst x)), snd x)
              else if ttype_eqb (k_type t) OPERATOR_RANGE then Throw "not modelled"
              else if ttype_eqb (k_type t) QUESTION_MARK then
                match r with
                | [] => UB
                | u :: _ =>
                    let! x := if ttype_eqb (k_type u) COLON then Ok (None, r)
                              else let! y := parse env n (WLevel 3) r in Ok (Some (fst y), snd y) in
                    let! _ := expect COLON (snd x) in
                    let! z := parse env n (WLevel 3) (tail (snd x)) in
                    let! e := ternary_node a (fst x) (fst z) in Ok (e, snd z)
                end
              else parse env n (WRepeat a) ts
          end
      (* 476-504, 733-763 *)
      | WRepeat a =>
          match ts with
          | [] => UB
          | t :: r =>
              if ttype_eqb (k_type t) BRACKET_OPEN then Throw "NotSupported"
              else if ty_in (k_type t) [OPERATOR_DECREMENT; OPERATOR_INCREMENT] then
                parse env n (WRepeat (PUn (k_type t) (k_text t) false a)) r
              else if ttype_eqb (k_type t) OPERATOR_NOT then
                parse env n (WRepeat (PUn OPERATOR_VALIDATE [] false a)) r
              else if ttype_eqb (k_type t) OPERATOR_SCOPE then Throw "not modelled"
              else Ok (a, ts)
          end
      (* 509-564 *)
      | WTerm =>
          match ts with
          | [] => UB
          | t :: r =>
              match literal (pe_io env) (k_type t) (k_text t) with
              | Some v => Ok (PLit v, r)
              | None =>
                  if ttype_eqb (k_type t) IDENTIFIER then
                    let! x := resolve_name env ts in
                    parse env n (WName (k_text t) (fst x)) (snd x)
                  else if ttype_eqb (k_type t) KEYWORD then parse env n (WWord (k_text t)) r
                  else if ttype_eqb (k_type t) PARENTHESIS_OPEN then
                    let! x := parse env n (WLevel 3) r in
                    let! _ := expect PARENTHESIS_CLOSE (snd x) in
                    Ok (fst x, tail (snd x))
                  else Throw "SyntaxError"
              end
          end
      (* 1380-1441 with allowTypeCast *)
      | WName x k =>
          match ts with
          | [] => UB
          | t :: r =>
              if cat_constant t || ttype_eqb (k_type t) IDENTIFIER || ttype_eqb (k_type t) KEYWORD then
                match k with
                | KType ty _ => let! y := parse env n (WLevel 3) ts in Ok (PCast ty (fst y), snd y)
                | _ => UB
                end
              else if cat_assignment t then
                let! y := parse env n (WLevel 3) r in
                let! e := assign_node env t x k (fst y) in Ok (e, snd y)
              else if ttype_eqb (k_type t) PARENTHESIS_OPEN then
                let! closed := find_parenthesis r in
                let! l := args_loop (parse env n (WLevel 3)) n closed r in
                let! e := call_node env x l in
                Ok (e, tail closed)
              else if ttype_eqb (k_type t) BRACKET_OPEN then Throw "not modelled"
              else if ttype_eqb (k_type t) OPERATOR_DECREMENT || ttype_eqb (k_type t) OPERATOR_INCREMENT then
                let! e := step_node t x k in Ok (e, r)
              else Ok (PSym x k, ts)
          end
      (* 1194-1219, process_cast 1060-1094, process_typeid 2162-2174 *)
      | WWord s =>
          if str_eqb s ($"cast") then
            let! _ := expect COMPARE_LESS ts in
            let! x := type_name env (tail ts) in
            let! _ := expect COMPARE_GREATER (snd x) in
            let! _ := expect PARENTHESIS_OPEN (tail (snd x)) in
            let! y := parse env n (WLevel 3) (tail (tail (snd x))) in
            let! _ := expect PARENTHESIS_CLOSE (snd y) in
            let! e := cast_node env (fst x) (fst y) in
            Ok (e, tail (snd y))
          else if str_eqb s ($"typeid") then
            let! _ := expect PARENTHESIS_OPEN ts in
            let! y := parse env n (WLevel 3) (tail ts) in
            let! _ := expect PARENTHESIS_CLOSE (snd y) in
            Ok (PTypeid (fst y), tail (snd y))
          else if str_eqb s ($"copy") || str_eqb s ($"new") || str_eqb s ($"streval") then Throw "not modelled"
          else Throw "SyntaxError"
      end
  end.

(** TreeGenerator::expression *)
Definition parse_expression (env : penv) (n : nat) (ts : list token) : res (pexpr * list token) :=
  parse env n (WLevel 3) ts.

(** ** PrintVisitor::printExpression, AST/PrintVisitor.cpp:35-143 *)
Fixpoint print_args (l : list str) : str :=
  match l with
  | [] => []
  | [s] => s
  | s :: r => s ++ $", " ++ print_args r
  end.
Fixpoint print_pexpr (io : fio) (e : pexpr) : str :=
  match e with
  | PLit v => match o_val v with
              | AStr s => [chr 34] ++ s ++ [chr 34]
              | _ => to_std_string io (o_val v)
              end
  | PSym x _ => x
  | PBin _ s a b _ => print_pexpr io a ++ $" " ++ s ++ $" " ++ print_pexpr io b
  | PBool _ s a b => print_pexpr io a ++ $" " ++ s ++ $" " ++ print_pexpr io b
  (* the symbol node prints as its innermost name: the receiver is not printed *)
  | PMeth _ s b _ => $"operator" ++ s ++ $"(" ++ print_pexpr io b ++ $")"
  | PUn _ s _ a => s ++ print_pexpr io a
  | PNot s a => s ++ print_pexpr io a
  | PTern c a b => print_pexpr io c ++ $" ? " ++ print_pexpr io a ++ $" : " ++ print_pexpr io b
  | PElvis c b => print_pexpr io c ++ $" ? " ++ print_pexpr io c ++ $" : " ++ print_pexpr io b
  | PCast t a => $"( " ++ t ++ $" " ++ print_pexpr io a ++ $" )"
  | PTypeid a => $"typeid( " ++ print_pexpr io a ++ $" )"
  | PIs a t => print_pexpr io a ++ $" is " ++ t
  | PAssign x _ a _ => x ++ $" = " ++ print_pexpr io a
  | PCall f args _ => f ++ $"(" ++ print_args (map (print_pexpr io) args) ++ $")"
  end.
