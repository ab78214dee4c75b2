(** Specification of statements, independent of the reader: a grammar, and what the texts of the grammar mean. *)
From Coq Require Import Floats.SpecFloat.
From Verif Require Import Base Text_Model Tok_Model TypeTable TypeSys_Model Value_Model Parse_Model Parse_Spec Decl_Model Stmt_Model.

(** ** Statements as they are written *)
(** A declared name: type, name, and the words for mutability and access mode if they are there. *)
Record named_type := NamedType { nt_type : str; nt_name : str; nt_mut : option str; nt_acc : option str }.

Inductive ss :=
| YEmpty                                                     (* ; *)
| YExpr (x : sx)
| YAssign (x : sx)
| YDecl (d : named_type) (e : option sx)
| YVar (x : str) (m a : option str) (e : sx)
| YAssert (e : sx) (message : option sx)
| YBreak
| YContinue
| YDelete (e : sx)
| YExit (e : sx)
| YPrint (e : sx)
| YReturn (e : option sx)
| YThrow (e : option sx)
| YFor (init : option ss) (c : option sx) (it : option ss) (b : ss)
| YForeach (d : named_type) (e : sx) (b : ss)
| YIf (c : sx) (a : ss) (b : option ss)
| YSwitch (e : sx) (cs : list (option sx * list ss))         (* case e: and default: *)
| YTry (l : list ss) (cs : list (option (option named_type) * list ss))    (* catch, catch (T x) and finally *)
| YWhile (c : sx) (b : ss)
| YBlock (l : list ss).

(** How a statement ends: with its own [;] or [}] (Full), as an if statement that an else could follow (OpenIf), or without
    the [;] that has to follow it (Semi). *)
Inductive kind := Full | OpenIf | Semi.

(** An optional word of the given type. In the lax grammar the keyword [default] is an access mode too. *)
Definition word (strict : bool) (ty : ttype) (ts : list token) (w : option str) : Prop :=
  match w with
  | None => ts = []
  | Some s => exists t, ts = [t] /\ k_text t = s /\ (k_type t = ty \/ strict = false /\ ty = ACCESS_MODE /\ s = $"default")
  end.
Definition keyword (t : token) (w : str) : Prop := k_type t = KEYWORD /\ k_text t = w.
(** The same by the text alone in the lax grammar. *)
Definition keyword_text (strict : bool) (t : token) (w : str) : Prop := k_text t = w /\ (strict = true -> k_type t = KEYWORD).

(** Type, name, mutability and access mode. *)
Inductive named_tokens (strict : bool) : list token -> named_type -> Prop :=
| nt_tokens t x m a mw aw : (strict = true -> k_type t = IDENTIFIER) -> k_type x = IDENTIFIER ->
    word strict MUTABILITY m mw -> word strict ACCESS_MODE a aw ->
    named_tokens strict (t :: x :: m ++ a) (NamedType (k_text t) (k_text x) mw aw).

(** An expression somewhere in a statement. *)
Definition expr (strict : bool) (k : nat) (ts : list token) (x : sx) : Prop := exists e, denotes strict (Lvl k) e ts x.
Definition opt_expr (strict : bool) (ts : list token) (x : option sx) : Prop :=
  match x with Some x => expr strict 3 ts x | None => ts = [] end.
(** Something between brackets *)
Definition between (o c : ttype) (ts inner : list token) : Prop :=
  exists a b, ts = a :: inner ++ [b] /\ k_type a = o /\ k_type b = c.
Notation parens := (between PARENTHESIS_OPEN PARENTHESIS_CLOSE).
Notation curly := (between BRACKET_CURLY_OPEN BRACKET_CURLY_CLOSE).
Notation nested_curly := (nested BRACKET_CURLY_OPEN BRACKET_CURLY_CLOSE).

(** Statements that can stand in the head of a for loop. *)
Definition simple (s : ss) : Prop := match s with YExpr _ | YAssign _ | YDecl _ _ | YVar _ _ _ _ => True | _ => False end.
(** Names, calls, steps: the expressions behind a name that are statements. *)
Definition effect (x : sx) : Prop := match x with XName _ | XCall _ _ | XStep _ _ _ => True | _ => False end.

(** [written true k ts s]: the tokens [ts] are the statement [s]. [written false] is what the reader also lets pass:
    - statements need not be separated, and everything behind an end-of-file token is skipped;
    - any token does for a separator in the head of a for loop, and any statement can stand there;
    - catch and finally blocks can come in any order and number;
    - names of types, and the words catch and finally, are not checked for the type of their tokens. *)
Inductive written (strict : bool) : kind -> list token -> ss -> Prop :=
| w_empty t : k_type t = SEMICOLON -> written strict Full [t] YEmpty
| w_effect e t ts x : k_type t = IDENTIFIER -> denotes strict Term e (t :: ts) x -> (strict = true -> effect x) ->
    written strict Semi (t :: ts) (YExpr x)
| w_paren o ts x : k_type o = PARENTHESIS_OPEN -> expr strict 3 (o :: ts) x -> written strict Semi (o :: ts) (YExpr x)
| w_assign t u ts x : k_type t = IDENTIFIER -> k_type u ∈ assign_types -> expr strict 3 (t :: u :: ts) x ->
    written strict Semi (t :: u :: ts) (YAssign x)
| w_decl ts d : named_tokens strict ts d -> written strict Semi ts (YDecl d None)
| w_init ts d q ts' x : named_tokens strict ts d -> k_type q = ASSIGN -> expr strict 3 ts' x ->
    written strict Semi (ts ++ q :: ts') (YDecl d (Some x))
| w_var t n m a q ts mw aw x : keyword t ($"var") -> k_type n = IDENTIFIER -> word strict MUTABILITY m mw ->
    word strict ACCESS_MODE a aw -> k_type q = ASSIGN -> expr strict 3 ts x ->
    written strict Semi (t :: n :: m ++ a ++ q :: ts) (YVar (k_text n) mw aw x)
| w_assert t ts inner x : keyword t ($"assert") -> parens ts inner -> expr strict 3 inner x ->
    written strict Semi (t :: ts) (YAssert x None)
| w_assert_message t ts ts1 c ts2 x y : keyword t ($"assert") -> parens ts (ts1 ++ c :: ts2) -> expr strict 3 ts1 x ->
    k_type c = COMMA -> expr strict 3 ts2 y -> written strict Semi (t :: ts) (YAssert x (Some y))
| w_break t c : keyword t ($"break") -> k_type c = SEMICOLON -> written strict Full [t; c] YBreak
| w_continue t c : keyword t ($"continue") -> k_type c = SEMICOLON -> written strict Full [t; c] YContinue
| w_delete t ts c x : keyword t ($"delete") -> expr strict 3 ts x -> k_type c = SEMICOLON ->
    written strict Full (t :: ts ++ [c]) (YDelete x)
| w_exit t ts inner c x : keyword t ($"exit") -> parens ts inner -> expr strict 3 inner x -> k_type c = SEMICOLON ->
    written strict Full (t :: ts ++ [c]) (YExit x)
| w_print t ts inner c x : keyword t ($"print") -> parens ts inner -> expr strict 3 inner x -> k_type c = SEMICOLON ->
    written strict Full (t :: ts ++ [c]) (YPrint x)
| w_return t ts c x : keyword t ($"return") -> opt_expr strict ts x -> k_type c = SEMICOLON ->
    written strict Full (t :: ts ++ [c]) (YReturn x)
| w_throw t ts c x : keyword t ($"throw") -> opt_expr strict ts x -> k_type c = SEMICOLON ->
    written strict Full (t :: ts ++ [c]) (YThrow x)
| w_for t o ti s1 tc s2 tu p tb i c u k b : keyword t ($"for") -> k_type o = PARENTHESIS_OPEN ->
    written_opt strict ti i -> opt_expr strict tc c -> written_opt strict tu u -> written strict k tb b ->
    (strict = true -> k_type s1 = SEMICOLON /\ k_type s2 = SEMICOLON /\ k_type p = PARENTHESIS_CLOSE) ->
    written strict k (t :: o :: ti ++ s1 :: tc ++ s2 :: tu ++ p :: tb) (YFor i c u b)
| w_foreach t o td q tx p tb d x k b : keyword t ($"foreach") -> k_type o = PARENTHESIS_OPEN -> named_tokens strict td d ->
    k_type q = COLON -> expr strict 1 tx x -> k_type p = PARENTHESIS_CLOSE -> written strict k tb b ->
    written strict k (t :: o :: td ++ q :: tx ++ p :: tb) (YForeach d x b)
| w_if t ts inner c k ta a : keyword t ($"if") -> parens ts inner -> expr strict 3 inner c -> written strict k ta a ->
    written strict (match k with Semi => Semi | _ => OpenIf end) (t :: ts ++ ta) (YIf c a None)
| w_else t ts inner c ka ta a e k tb b : keyword t ($"if") -> parens ts inner -> expr strict 3 inner c ->
    written strict ka ta a -> (strict = true -> ka = Full) -> keyword e ($"else") -> written strict k tb b ->
    written strict k (t :: ts ++ ta ++ e :: tb) (YIf c a (Some b))
| w_switch t ts inner tc body x cs : keyword t ($"switch") -> parens ts inner -> expr strict 3 inner x -> curly tc body ->
    written_cases strict body cs -> written strict Full (t :: ts ++ tc) (YSwitch x cs)
| w_try t tb body tc l cs : keyword t ($"try") -> curly tb body -> (strict = false -> nested_curly body) ->
    written_list strict body l -> written_clauses strict tc cs -> written strict Full (t :: tb ++ tc) (YTry l cs)
| w_while t ts inner c k tb b : keyword t ($"while") -> parens ts inner -> expr strict 3 inner c -> written strict k tb b ->
    written strict k (t :: ts ++ tb) (YWhile c b)
| w_block ts body l : curly ts body -> (strict = false -> nested_curly body) -> written_list strict body l ->
    written strict Full ts (YBlock l)
with written_opt (strict : bool) : list token -> option ss -> Prop :=
| wo_none : written_opt strict [] None
| wo_some k ts s : written strict k ts s -> (strict = true -> simple s) -> written_opt strict ts (Some s)
with written_list (strict : bool) : list token -> list ss -> Prop :=
| wl_nil : written_list strict [] []
| wl_end t ts : strict = false -> k_type t = ENDOFFILE -> written_list strict (t :: ts) []
| wl_full k ts s ts' l : written strict k ts s -> (strict = true -> k <> Semi) -> written_list strict ts' l ->
    written_list strict (ts ++ ts') (s :: l)
| wl_semi ts s c ts' l : written strict Semi ts s -> k_type c = SEMICOLON -> written_list strict ts' l ->
    written_list strict (ts ++ c :: ts') (s :: l)
with written_cases (strict : bool) : list token -> list (option sx * list ss) -> Prop :=
| wc_nil : written_cases strict [] []
| wc_case t tx x c tb body l ts cs : keyword t ($"case") -> expr strict 3 tx x -> k_type c = COLON -> curly tb body ->
    (strict = false -> nested_curly body) -> written_list strict body l -> written_cases strict ts cs ->
    written_cases strict (t :: tx ++ c :: tb ++ ts) ((Some x, l) :: cs)
| wc_default t c tb body l ts cs : keyword t ($"default") -> k_type c = COLON -> curly tb body ->
    (strict = false -> nested_curly body) -> written_list strict body l -> written_cases strict ts cs ->
    written_cases strict (t :: c :: tb ++ ts) ((None, l) :: cs)
with written_clauses (strict : bool) : list token -> list (option (option named_type) * list ss) -> Prop :=
| wk_nil : written_clauses strict [] []
| wk_catch_all t tb body l ts cs : keyword_text strict t ($"catch") -> curly tb body ->
    (strict = false -> nested_curly body) -> written_list strict body l -> written_clauses strict ts cs ->
    written_clauses strict (t :: tb ++ ts) ((Some None, l) :: cs)
| wk_catch t tp td d tb body l ts cs : keyword_text strict t ($"catch") -> parens tp td -> named_tokens strict td d ->
    curly tb body -> (strict = false -> nested_curly body) -> written_list strict body l -> written_clauses strict ts cs ->
    written_clauses strict (t :: tp ++ tb ++ ts) ((Some (Some d), l) :: cs)
| wk_finally t tb body l ts cs : keyword_text strict t ($"finally") -> curly tb body ->
    (strict = false -> nested_curly body) -> written_list strict body l -> written_clauses strict ts cs ->
    (strict = true -> cs = []) -> written_clauses strict (t :: tb ++ ts) ((None, l) :: cs).

(** ** What statements mean *)
(** The typed trees, with the scopes of the names: a block, the head of a loop and a catch clause open a scope of their own,
    which ends with them; a declaration adds its name to the innermost scope. Errors come up in the order of the text. *)
(** A name means its declaration in the innermost scope that has one. *)
Fixpoint declared_in (l : list (str * symk)) (x : str) : option symk :=
  match l with [] => None | (y, k) :: r => if str_eqb x y then Some k else declared_in r x end.
Fixpoint visible (sc : scopes) (x : str) : option symk :=
  match sc with [] => None | l :: r => match declared_in l x with Some k => Some k | None => visible r x end end.
(** A declaration adds a name to the innermost scope, unless it is there. *)
Definition declare_name (x : str) (k : symk) (sc : scopes) : res scopes :=
  match sc with
  | [] => UB
  | l :: r => match declared_in l x with Some _ => Throw "DuplicateIdentifier" | None => Ok (((x, k) :: l) :: r) end
  end.
(** The nodes of a block in their order; empty statements and blocks have none. *)
Definition node_first (q : option pstmt) (l : list pstmt) : list pstmt := match q with Some q => q :: l | None => l end.
Definition block_node (l : list pstmt) : option pstmt := match l with [] => None | _ => Some (QBlock l) end.
Definition catch_nodes (l : list clause) : list (option pstmt * list pstmt) :=
  flat_map (fun c => match c with QCatch d b => [(d, b)] | QFinally _ => [] end) l.
Definition finally_node (l : list clause) : list pstmt :=
  flat_map (fun c => match c with QCatch _ _ => [] | QFinally b => b end) l.

Section Elab.
Context (E : senv).

Definition names_inside (sc : scopes) : penv :=
  let e := se_env E in
  PEnv (pe_table e) (fun x => match visible sc x with Some k => Some k | None => pe_name e x end)
       (pe_method e) (pe_opm e) (pe_type e) (pe_io e).
Definition elab_in (sc : scopes) (x : sx) : res pexpr := elab (names_inside sc) x.
Definition elab_opt (sc : scopes) (x : option sx) : res (option pexpr) :=
  match x with Some x => let! p := elab_in sc x in Ok (Some p) | None => Ok None end.

Definition mutability_of (m : option str) : res bool :=
  match m with
  | None => Ok false
  | Some w => if str_eqb w ($"const") then Ok true else if str_eqb w ($"modify") then Ok false else Throw "SyntaxError"
  end.
(** Without a word atomic types are passed by value and others by reference; any word but [ref] means by value. *)
Definition reference_of (default : bool) (a : option str) : bool :=
  match a with None => default | Some w => str_eqb w ($"ref") end.

Definition elab_decl (init : bool) (sc : scopes) (d : named_type) (e : option sx) : res (pstmt * scopes) :=
  match visible sc (nt_type d), pe_name (se_env E) (nt_type d) with
  | None, None => Throw "InvalidSymbol"
  | Some (KType ty _), _ | None, Some (KType ty _) =>
      let! c := mutability_of (nt_mut d) in
      if negb (pe_type (se_env E) ty) then Throw "Exception"
      else
        let! sc1 := declare_name (nt_name d) (KVar ty (se_atomic E ty)) sc in
        let ref := reference_of (negb (se_atomic E ty)) (nt_acc d) in
        match e with
        | Some e =>
            if negb init then Throw "NotSupported"
            else
              let! p := elab_in sc1 e in
              let! _ := get_type (pe_table (se_env E)) ty ASSIGN (ptype p) in
              Ok (QDecl ty (nt_name d) c ref (Some p), sc1)
        | None =>
            if init && ref && se_atomic E ty then Throw "NotSupported" else Ok (QDecl ty (nt_name d) c ref None, sc1)
        end
  | _, _ => Throw "InvalidSymbol"
  end.

Definition elab_var (sc : scopes) (x : str) (m a : option str) (e : sx) : res (pstmt * scopes) :=
  let! c := mutability_of m in
  let! p := elab_in sc e in
  if negb (pe_type (se_env E) (ptype p)) then Throw "Exception"
  else
    let! sc1 := declare_name x (KVar (ptype p) (se_atomic E (ptype p))) sc in
    Ok (QVar (ptype p) x c (reference_of false a) p, sc1).

Definition node_of (sc : scopes) (q : res pstmt) : res (option pstmt * scopes) := let! q := q in Ok (Some q, sc).
Definition here_too (x : res (pstmt * scopes)) : res (option pstmt * scopes) := let! x := x in Ok (Some (fst x), snd x).

Fixpoint elab_stmt (sc : scopes) (s : ss) {struct s} : res (option pstmt * scopes) :=
  let fix block (sc : scopes) (l : list ss) {struct l} : res (list pstmt) :=
    match l with
    | [] => Ok []
    | s :: l => let! x := elab_stmt sc s in let! r := block (snd x) l in Ok (node_first (fst x) r)
    end in
  let fix labels (has : bool) (cs : list (option sx * list ss)) {struct cs} : res (list (pexpr * list pstmt) * list pstmt) :=
    match cs with
    | [] => Ok ([], [])
    | (Some x, l) :: cs =>
        let! p := elab_in sc x in
        let! b := block ([] :: sc) l in
        match b with
        | [] => Throw "ControlFlowException"
        | _ => let! r := labels has cs in Ok ((p, b) :: fst r, snd r)
        end
    | (None, l) :: cs =>
        if has then Throw "SyntaxError"
        else
          let! b := block ([] :: sc) l in
          match b with
          | [] => Throw "ControlFlowException"
          | _ => let! r := labels true cs in Ok (fst r, b)
          end
    end in
  let fix handlers (has : bool) (cs : list (option (option named_type) * list ss)) {struct cs} : res (list clause) :=
    match cs with
    | [] => Ok []
    | (Some None, l) :: cs =>
        let! b := block ([] :: [] :: sc) l in let! r := handlers has cs in Ok (QCatch None b :: r)
    | (Some (Some d), l) :: cs =>
        let! d := elab_decl false ([] :: sc) d None in
        let! b := block ([] :: snd d) l in let! r := handlers has cs in Ok (QCatch (Some (fst d)) b :: r)
    | (None, l) :: cs =>
        if has then Throw "SyntaxError"
        else let! b := block ([] :: sc) l in
             let! r := handlers (negb (bool_decide (b = []))) cs in Ok (QFinally b :: r)
    end in
  match s with
  | YEmpty => Ok (None, sc)
  | YExpr x => node_of sc (let! p := elab_in sc x in Ok (QExpr p))
  | YAssign x => node_of sc (let! p := elab_in sc x in Ok (match p with PAssign y k e _ => QAssign y k e | _ => QExpr p end))
  | YDecl d e => here_too (elab_decl true sc d e)
  | YVar x m a e => here_too (elab_var sc x m a e)
  | YAssert e m => node_of sc (let! p := elab_in sc e in let! q := elab_opt sc m in Ok (QAssert p q))
  | YBreak => Ok (Some QBreak, sc)
  | YContinue => Ok (Some QContinue, sc)
  | YDelete e => node_of sc (let! p := elab_in sc e in Ok (QDelete p))
  | YExit e => node_of sc (let! p := elab_in sc e in Ok (QExit p))
  | YPrint e => node_of sc (let! p := elab_in sc e in Ok (QPrint p))
  | YReturn e => node_of sc (let! p := elab_opt sc e in Ok (QReturn p))
  | YThrow e => node_of sc (let! p := elab_opt sc e in Ok (QThrow p))
  | YFor i c u b =>
      let! i := match i with Some i => elab_stmt ([] :: sc) i | None => Ok (None, [] :: sc) end in
      let! c := elab_opt (snd i) c in
      let! u := match u with Some u => elab_stmt (snd i) u | None => Ok (None, snd i) end in
      let! b := elab_stmt (snd u) b in
      Ok (Some (QFor (fst i) c (fst u) (fst b)), sc)
  | YForeach d e b =>
      let! d := elab_decl false ([] :: sc) d None in
      let! p := elab_in (snd d) e in
      let! _ := se_each E p in
      let! b := elab_stmt (snd d) b in
      Ok (Some (QForeach (fst d) p (fst b)), sc)
  | YIf c a b =>
      let! p := elab_in sc c in
      let! a := elab_stmt sc a in
      let! b := match b with Some b => elab_stmt (snd a) b | None => Ok (None, snd a) end in
      Ok (Some (QIf p (fst a) (fst b)), snd b)
  | YSwitch e cs =>
      let! p := elab_in sc e in
      let! r := labels false cs in
      if negb (pe_type (se_env E) (ptype p)) then Throw "UnknownIdentifier"
      else Ok (Some (QSwitch p (fst r) (snd r)), sc)
  | YTry l cs =>
      let! b := block ([] :: sc) l in
      let! r := handlers false cs in
      Ok (Some (QTry b (catch_nodes r) (finally_node r)), sc)
  | YWhile c b =>
      let! p := elab_in sc c in
      let! b := elab_stmt sc b in
      Ok (Some (QWhile p (fst b)), snd b)
  | YBlock l => let! b := block ([] :: sc) l in Ok (block_node b, sc)
  end.

(** A list of statements. *)
Fixpoint elab_list (sc : scopes) (l : list ss) : res (list pstmt) :=
  match l with
  | [] => Ok []
  | s :: l => let! x := elab_stmt sc s in let! r := elab_list (snd x) l in Ok (node_first (fst x) r)
  end.
End Elab.

(** Tokens as the tokenizer makes them: the words catch, finally and default are keywords or the text of a constant. *)
Definition spelled_ok (t : token) : Prop :=
  k_text t ∈ [$"catch"; $"finally"; $"default"] -> k_type t = KEYWORD \/ k_type t ∈ const_types.
Definition tokens_ok (ts : list token) : Prop := Forall well_made ts /\ Forall spelled_ok ts.
