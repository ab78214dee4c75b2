(** Model of the reader of statements:
    Projects/Core/Core/AST/TreeGenerator.cpp.

    Blocks are cut out by collectScopeTokens and expressions are read by [parse] (Parse_Model); this file models
    process, process_statement and the functions of the statements, with the scopes of the names they declare.
    The control flow checks that the generator makes on the way (break outside of loops, missing return, undeclared
    exceptions, blocks of a switch) are Gen_Model; the const checks are Const_Model.

    What is simplified:
    - whether a type can be iterated over, with the look-up of its iterator methods, is an arbitrary function;
    - prototype types and qualified type names end in the outcome "not modelled" of Parse_Model;
    - warnings are left out, and so are the tokens the nodes keep for error messages. *)
From Coq Require Import Floats.SpecFloat.
From Verif Require Import Base Text_Model Tok_Model TypeTable TypeSys_Model Value_Model Parse_Model Decl_Model.

(** Statement nodes, AST/Statement.h and AST/ControlFlow.h. A null pointer is [None] or the empty list. *)
Inductive pstmt :=
| QExpr (e : pexpr)
| QAssign (x : str) (k : symk) (e : pexpr)
| QDecl (t x : str) (const ref : bool) (e : option pexpr)
| QVar (t x : str) (const ref : bool) (e : pexpr)
| QAssert (e : pexpr) (message : option pexpr)
| QBreak
| QContinue
| QDelete (e : pexpr)
| QExit (e : pexpr)
| QFor (init : option pstmt) (c : option pexpr) (it body : option pstmt)
| QForeach (decl : pstmt) (e : pexpr) (body : option pstmt)
| QIf (e : pexpr) (a b : option pstmt)
| QPrint (e : pexpr)
| QReturn (e : option pexpr)
| QSwitch (e : pexpr) (cs : list (pexpr * list pstmt)) (d : list pstmt)
| QThrow (e : option pexpr)
| QTry (b : list pstmt) (cs : list (option pstmt * list pstmt)) (fin : list pstmt)
| QWhile (e : pexpr) (body : option pstmt)
| QBlock (l : list pstmt).

(** The scopes opened while the method is read, innermost first: SymbolScope and the stack of the StackFrame. *)
Definition scopes := list (list (str * symk)).
Fixpoint sc_find (l : list (str * symk)) (x : str) : option symk :=
  match l with [] => None | (y, k) :: r => if str_eqb x y then Some k else sc_find r x end.
(** SymbolScope::resolve, Scope.cpp:90-112, up to the scope of the method. *)
Fixpoint local (sc : scopes) (x : str) : option symk :=
  match sc with
  | [] => None
  | l :: r => match sc_find l x with Some k => Some k | None => local r x end
  end.
(** SymbolScope::define, Scope.cpp:33-45, in the innermost scope. *)
Definition define_local (x : str) (k : symk) (sc : scopes) : res scopes :=
  match sc with
  | [] => UB
  | l :: r => match sc_find l x with Some _ => Throw "DuplicateIdentifier" | None => Ok (((x, k) :: l) :: r) end
  end.

(** What the reader knows about the program around the method. *)
Record senv := SEnv {
  se_env : penv;                       (* everything outside the body of the method *)
  se_atomic : str -> bool;             (* Object::isAtomicType by type name *)
  se_each : pexpr -> res unit          (* whether the collection of a foreach loop can be iterated over, 1300-1361 *)
}.

Section Read.
Context (E : senv).

(** The names visible inside of the scopes [sc]. *)
Definition inside (sc : scopes) : penv :=
  let e := se_env E in
  PEnv (pe_table e) (fun x => match local sc x with Some k => Some k | None => pe_name e x end)
       (pe_method e) (pe_opm e) (pe_type e) (pe_io e).

(** Reading an expression needs no more rounds than this (Parse_Props, C20_terminates). *)
Definition rounds (ts : list token) : nat := 10 * length ts + 20.
Definition expression (sc : scopes) (ts : list token) : res (pexpr * list token) := parse (inside sc) (rounds ts) (WLevel 3) ts.

(** [token->type() == ty] *)
Definition here (ty : ttype) (ts : list token) : res bool := match ts with [] => UB | t :: _ => Ok (ttype_eqb (k_type t) ty) end.
(** expect(ty, token); ++token; *)
Definition eat (ty : ttype) (ts : list token) : res (list token) := let! _ := expect ty ts in next ts.
(** ( expression ) *)
Definition in_parens (sc : scopes) (ts : list token) : res (pexpr * list token) :=
  let! ts1 := eat PARENTHESIS_OPEN ts in
  let! x := expression sc ts1 in
  let! ts2 := eat PARENTHESIS_CLOSE (snd x) in
  Ok (fst x, ts2).

Definition by_reference (a : access) : bool := match a with ByReference => true | _ => false end.

(** process_type, 2095-2157; [init] is Initialization::Allowed. *)
Definition declaration (init : bool) (sc : scopes) (ts : list token) : res (pstmt * scopes * list token) :=
  let! x := resolve_name (inside sc) ts in
  match fst x with
  | KType ty _ =>
      let! _ := expect IDENTIFIER (snd x) in
      match snd x with
      | [] => UB
      | t :: r =>
          let name := k_text t in
          let! m := parse_word MUTABILITY to_mutability Modify r in
          match fst m with
          | MUnknown => Throw "SyntaxError"
          | _ =>
              if negb (pe_type (se_env E) ty) then Throw "Exception"
              else
                let! sc1 := define_local name (KVar ty (se_atomic E ty)) sc in
                let! a := parse_access (if se_atomic E ty then ByValue else ByReference) (snd m) in
                let node := QDecl ty name (is_const (fst m)) (by_reference (fst a)) in
                let! assign := here ASSIGN (snd a) in
                if assign : bool then
                  if negb init then Throw "NotSupported"
                  else
                    let! ts1 := next (snd a) in
                    let! y := expression sc1 ts1 in
                    let! _ := get_type (pe_table (se_env E)) ty ASSIGN (ptype (fst y)) in
                    Ok (node (Some (fst y)), sc1, snd y)
                else if init && by_reference (fst a) && se_atomic E ty then Throw "NotSupported"
                else Ok (node None, sc1, snd a)
          end
      end
  | _ => Throw "InvalidSymbol"
  end.

(** process_var, 2179-2211, without the const check *)
Definition inference (sc : scopes) (ts : list token) : res (pstmt * scopes * list token) :=
  let! _ := expect IDENTIFIER ts in
  match ts with
  | [] => UB
  | t :: r =>
      let! m := parse_word MUTABILITY to_mutability Modify r in
      match fst m with
      | MUnknown => Throw "SyntaxError"
      | _ =>
          let! a := parse_access ByValue (snd m) in
          let! ts1 := eat ASSIGN (snd a) in
          let! y := expression sc ts1 in
          let ty := ptype (fst y) in
          if negb (pe_type (se_env E) ty) then Throw "Exception"
          else
            let! sc1 := define_local (k_text t) (KVar ty (se_atomic E ty)) sc in
            Ok (QVar ty (k_text t) (is_const (fst m)) (by_reference (fst a)) (fst y), sc1, snd y)
      end
  end.

(** process_identifier, 1380-1441, without type casts: declarations, calls, steps and bare names. What follows a name that
    is a constant or a keyword is left for the next statement. *)
Definition identifier (sc : scopes) (ts : list token) : res (pstmt * scopes * list token) :=
  let! x := resolve_name (inside sc) ts in
  match ts, snd x with
  | t :: _, u :: r =>
      if ttype_eqb (k_type u) IDENTIFIER then declaration true sc ts
      else if cat_constant u || ttype_eqb (k_type u) KEYWORD then Ok (QExpr (PSym (k_text t) (fst x)), sc, snd x)
      else let! y := parse (inside sc) (rounds ts) (WName (k_text t) (fst x)) (snd x) in Ok (QExpr (fst y), sc, snd y)
  | _, _ => UB
  end.

(** process_assignment, 931-948 *)
Definition assignment (sc : scopes) (ts : list token) : res (pstmt * scopes * list token) :=
  let! x := expression sc ts in
  Ok (match fst x with PAssign y k e _ => QAssign y k e | e => QExpr e end, sc, snd x).

(** An expression unless the next token is [ty]: 1232-1264, 1757-1760, 1977-1983. *)
Definition unless {A} (ty : ttype) (f : list token -> res (A * list token)) (ts : list token) : res (option A * list token) :=
  let! b := here ty ts in
  if b : bool then Ok (None, ts) else let! x := f ts in Ok (Some (fst x), snd x).

(** The statements without statements inside, behind their keyword: 905-924, 1041-1055, 1101-1115, 1159-1192, 1729-1773,
    1969-1988. *)
Definition flat (sc : scopes) (w : str) (ts : list token) : option (res (pstmt * scopes * list token)) :=
  let ended (x : res (pstmt * list token)) :=
    let! y := x in let! ts1 := eat SEMICOLON (snd y) in Ok (fst y, sc, ts1) in
  if str_eqb w ($"assert") then Some (
    let! ts1 := eat PARENTHESIS_OPEN ts in
    let! x := expression sc ts1 in
    let! comma := here COMMA (snd x) in
    let! y := if comma : bool then let! ts2 := next (snd x) in let! m := expression sc ts2 in Ok (Some (fst m), snd m)
              else Ok (None, snd x) in
    let! ts3 := eat PARENTHESIS_CLOSE (snd y) in
    Ok (QAssert (fst x) (fst y), sc, ts3))
  else if str_eqb w ($"break") then Some (ended (Ok (QBreak, ts)))
  else if str_eqb w ($"continue") then Some (ended (Ok (QContinue, ts)))
  else if str_eqb w ($"delete") then Some (ended (let! x := expression sc ts in Ok (QDelete (fst x), snd x)))
  else if str_eqb w ($"exit") then Some (ended (let! x := in_parens sc ts in Ok (QExit (fst x), snd x)))
  else if str_eqb w ($"print") then Some (ended (let! x := in_parens sc ts in Ok (QPrint (fst x), snd x)))
  else if str_eqb w ($"return") then Some (ended (let! x := unless SEMICOLON (expression sc) ts in Ok (QReturn (fst x), snd x)))
  else if str_eqb w ($"throw") then Some (ended (let! x := unless SEMICOLON (expression sc) ts in Ok (QThrow (fst x), snd x)))
  else if str_eqb w ($"var") then Some (inference sc ts)
  else None.

(** A block without statements is a null pointer, process 702-706. *)
Definition the_block (l : list pstmt) : option pstmt := match l with [] => None | _ => Some (QBlock l) end.
Definition add_node (q : option pstmt) (l : list pstmt) : list pstmt := match q with Some q => q :: l | None => l end.

(** The blocks of catch and finally statements *)
Inductive clause := QCatch (d : option pstmt) (l : list pstmt) | QFinally (l : list pstmt).
Definition catches (l : list clause) : list (option pstmt * list pstmt) :=
  flat_map (fun c => match c with QCatch d b => [(d, b)] | QFinally _ => [] end) l.
(** The finally block that is not null *)
Definition the_finally (l : list clause) : list pstmt :=
  flat_map (fun c => match c with QCatch _ _ => [] | QFinally b => b end) l.
(** The declaration in front of a catch block, 2026-2041; [sc] includes the scope opened for it. *)
Definition catch_decl (sc : scopes) (ts : list token) : res (option pstmt * scopes * list token) :=
  let! p := here PARENTHESIS_OPEN ts in
  if p : bool then
    let! ts1 := next ts in
    let! d := declaration false sc ts1 in
    let! ts2 := eat PARENTHESIS_CLOSE (snd d) in
    Ok (Some (fst (fst d)), snd (fst d), ts2)
  else Ok (None, sc, ts).

(** Reading statements. [process_statement] is 1818-1849 with the functions behind it, [process] is 678-709, [scope] is
    process_scope 1776-1782 with generate 128-151: the statements of the block and the place of its closing bracket. *)
Fixpoint statement (n : nat) (sc : scopes) (ts : list token) {struct n} : res (option pstmt * scopes * list token) :=
  match n with
  | O => Fuel
  | S n =>
      let scope (sc : scopes) (ts : list token) : res (list pstmt * list token) :=
        let! b := collect_scope ts in
        let! l := statements n ([] :: sc) (fst b) in Ok (l, snd b) in
      match ts with
      | [] => UB
      | t :: r =>
          if is t BRACKET_CURLY_OPEN then
            let! b := scope sc ts in
            let! ts1 := next (snd b) in Ok (the_block (fst b), sc, ts1)
          else if is t IDENTIFIER then
            match r with
            | [] => UB
            | u :: _ =>
                let! x := if cat_assignment u then assignment sc ts else identifier sc ts in
                Ok (Some (fst (fst x)), snd (fst x), snd x)
            end
          else if is t KEYWORD then
            let w := k_text t in
            match flat sc w r with
            | Some f => let! x := f in Ok (Some (fst (fst x)), snd (fst x), snd x)
            | None =>
                (* process_for, 1226-1273 *)
                if str_eqb w ($"for") then
                  let! ts1 := eat PARENTHESIS_OPEN r in
                  let! none := here SEMICOLON ts1 in
                  let! i := if none : bool then Ok (None, [] :: sc, ts1) else statement n ([] :: sc) ts1 in
                  let! ts2 := next (snd i) in
                  let! c := unless SEMICOLON (expression (snd (fst i))) ts2 in
                  let! ts3 := next (snd c) in
                  let! none := here PARENTHESIS_CLOSE ts3 in
                  let! it := if none : bool then Ok (None, snd (fst i), ts3) else statement n (snd (fst i)) ts3 in
                  let! ts4 := next (snd it) in
                  let! b := statement n (snd (fst it)) ts4 in
                  Ok (Some (QFor (fst (fst i)) (fst c) (fst (fst it)) (fst (fst b))), sc, snd b)
                (* process_foreach, 1281-1373 *)
                else if str_eqb w ($"foreach") then
                  let! ts1 := eat PARENTHESIS_OPEN r in
                  let! d := declaration false ([] :: sc) ts1 in
                  let! ts2 := eat COLON (snd d) in
                  let! x := parse (inside (snd (fst d))) (rounds ts2) (WLevel 1) ts2 in
                  let! _ := se_each E (fst x) in
                  let! ts3 := eat PARENTHESIS_CLOSE (snd x) in
                  let! b := statement n (snd (fst d)) ts3 in
                  Ok (Some (QForeach (fst (fst d)) (fst x) (fst (fst b))), sc, snd b)
                (* process_if, 1449-1474 *)
                else if str_eqb w ($"if") then
                  let! x := in_parens sc r in
                  let! a := statement n sc (snd x) in
                  let! b := match snd a with
                            | [] => Ok (None, snd (fst a), [])
                            | u :: r1 => if is u KEYWORD && str_eqb (k_text u) ($"else") then statement n (snd (fst a)) r1
                                         else Ok (None, snd (fst a), u :: r1)
                            end in
                  Ok (Some (QIf (fst x) (fst (fst a)) (fst (fst b))), snd (fst b), snd b)
                (* process_switch, 1876-1961 *)
                else if str_eqb w ($"switch") then
                  let! x := in_parens sc r in
                  let! ts1 := eat BRACKET_CURLY_OPEN (snd x) in
                  let! c := cases n sc false ts1 in
                  if negb (pe_type (se_env E) (ptype (fst x))) then Throw "UnknownIdentifier"
                  else
                    let! ts2 := eat BRACKET_CURLY_CLOSE (snd c) in
                    Ok (Some (QSwitch (fst x) (fst (fst c)) (snd (fst c))), sc, ts2)
                (* process_try, 1996-2089 *)
                else if str_eqb w ($"try") then
                  let! b := scope sc r in
                  let! ts1 := next (snd b) in
                  let! c := clauses n sc false ts1 in
                  Ok (Some (QTry (fst b) (catches (fst c)) (the_finally (fst c))), sc, snd c)
                (* process_while, 2217-2230 *)
                else if str_eqb w ($"while") then
                  let! x := in_parens sc r in
                  let! b := statement n sc (snd x) in
                  Ok (Some (QWhile (fst x) (fst (fst b))), snd (fst b), snd b)
                else match r with [] => UB | _ => Throw "SyntaxError" end
            end
          else if is t PARENTHESIS_OPEN then
            let! x := expression sc ts in Ok (Some (QExpr (fst x)), sc, snd x)
          else if is t SEMICOLON then Ok (None, sc, r)
          else Throw "SyntaxError"
      end
  end
with statements (n : nat) (sc : scopes) (ts : list token) {struct n} : res (list pstmt) :=
  match n with
  | O => Fuel
  | S n =>
      match ts with
      | [] => Ok []
      | t :: _ =>
          if is t ENDOFFILE then Ok []
          else
            let! x := statement n sc ts in
            let! l := statements n (snd (fst x)) (snd x) in
            Ok (add_node (fst (fst x)) l)
      end
  end
(** The loop of process_switch, 1894-1929; [has] tells whether there was a default block. Blocks have to change the control
    flow (1906, 1922), so empty ones are rejected; what the others need is Gen_Model. *)
with cases (n : nat) (sc : scopes) (has : bool) (ts : list token) {struct n}
    : res (list (pexpr * list pstmt) * list pstmt * list token) :=
  match n with
  | O => Fuel
  | S n =>
      let scope (ts : list token) : res (list pstmt * list token) :=
        let! b := collect_scope ts in
        let! l := statements n ([] :: sc) (fst b) in
        match l with [] => Throw "ControlFlowException" | _ => let! ts1 := next (snd b) in Ok (l, ts1) end in
      match ts with
      | [] => UB
      | t :: r =>
          if is t BRACKET_CURLY_CLOSE then Ok ([], [], ts)
          else if is t KEYWORD && str_eqb (k_text t) ($"case") then
            let! x := expression sc r in
            let! ts1 := eat COLON (snd x) in
            let! b := scope ts1 in
            let! c := cases n sc has (snd b) in
            Ok ((fst x, fst b) :: fst (fst c), snd (fst c), snd c)
          else if is t KEYWORD && str_eqb (k_text t) ($"default") then
            if has then Throw "SyntaxError"
            else
              let! ts1 := eat COLON r in
              let! b := scope ts1 in
              let! c := cases n sc true (snd b) in
              Ok (fst (fst c), fst b, snd c)
          else Throw "SyntaxError"
      end
  end
(** The loop of process_try, 2015-2076, from the place behind a closing bracket: the words are compared by their text alone.
    [has] tells whether there was a finally block with statements. *)
with clauses (n : nat) (sc : scopes) (has : bool) (ts : list token) {struct n} : res (list clause * list token) :=
  match n with
  | O => Fuel
  | S n =>
      let scope (sc : scopes) (ts : list token) : res (list pstmt * list token) :=
        let! b := collect_scope ts in
        let! l := statements n ([] :: sc) (fst b) in
        let! ts1 := next (snd b) in Ok (l, ts1) in
      match ts with
      | [] => Ok ([], [])
      | t :: r =>
          if str_eqb (k_text t) ($"catch") then
            let! d := catch_decl ([] :: sc) r in
            let! b := scope (snd (fst d)) (snd d) in
            let! c := clauses n sc has (snd b) in
            Ok (QCatch (fst (fst d)) (fst b) :: fst c, snd c)
          else if str_eqb (k_text t) ($"finally") then
            if has then Throw "SyntaxError"
            else
              let! b := scope sc r in
              let! c := clauses n sc (negb (bool_decide (fst b = []))) (snd b) in
              Ok (QFinally (fst b) :: fst c, snd c)
          else Ok ([], ts)
      end
  end.

(** generate, 128-151, for the tokens of a method (generateAST, 156-169): the scope [sc] of the method holds its parameters.
    The loops need no more rounds than this (Stmt_Props, C66_terminates). *)
Definition read_method (sc : scopes) (ts : list token) : res (list pstmt) :=
  statements (2 * length ts + 2) ([] :: sc) ts.
End Read.
