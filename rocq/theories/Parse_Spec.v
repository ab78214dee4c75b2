(** Specification of blocks, brackets and expressions, independent of the reader. *)
From Coq Require Import Floats.SpecFloat.
From Verif Require Import Base Text_Model Tok_Model TypeTable TypeSys_Model Value_Model Parse_Model.

(** ** Brackets *)
(** [nested op cl l]: the brackets of one kind are well nested in [l]. *)
Inductive nested (op cl : ttype) : list token -> Prop :=
| nested_nil : nested op cl []
| nested_other t l : k_type t <> op -> k_type t <> cl -> nested op cl l -> nested op cl (t :: l)
| nested_pair o b c l : k_type o = op -> k_type c = cl -> nested op cl b -> nested op cl l ->
    nested op cl (o :: b ++ c :: l).

(** How often a kind of token occurs. *)
Definition occurrences (ty : ttype) (ts : list token) : nat :=
  length (List.filter (fun t => ttype_eqb (k_type t) ty) ts).

(** ** Surface syntax trees: what a text of tokens denotes. *)
Inductive sx :=
| XLit (ty : ttype) (s : str)
| XName (x : str)
| XCall (f : str) (args : list sx)
| XCast (t : str) (a : sx)                  (* T e *)
| XConv (t : str) (a : sx)                  (* cast<T>(e) *)
| XTypeid (a : sx)
| XAssign (x : str) (op : ttype) (a : sx)   (* x = e, x += e, ... *)
| XSign (op : ttype) (s : str) (a : sx)     (* +e, -e *)
| XNot (s : str) (a : sx)                   (* !e *)
| XStep (x : str) (op : ttype) (s : str)    (* x++, x-- *)
| XPost (op : ttype) (s : str) (a : sx)     (* e++, e-- on anything but a name *)
| XValid (a : sx)                           (* e! *)
| XIs (a : sx) (t : str)
| XTern (c a b : sx)
| XElvis (c b : sx)
| XBin (k : nat) (op : ttype) (s : str) (a b : sx).

(** The operators of the four levels, strongest first. *)
Definition mul_ops := [MATH_MULTIPLY; MATH_DIVIDE; MATH_MODULO].
Definition add_ops := [MATH_ADDITION; MATH_SUBTRACT; BITAND; BITOR; BITCOMPLEMENT; OPERATOR_SHIFT_LEFT; OPERATOR_SHIFT_RIGHT].
Definition compare_ops := [COMPARE_EQUAL; COMPARE_UNEQUAL; COMPARE_EQUAL_CONTENT; COMPARE_UNEQUAL_CONTENT;
  COMPARE_LESS; COMPARE_LESS_EQUAL; COMPARE_GREATER; COMPARE_GREATER_EQUAL].
Definition logic_ops := [AND; OR; NAND; NOR].
Definition ops (k : nat) : list ttype :=
  match k with 0 => mul_ops | 1 => add_ops | 2 => compare_ops | _ => logic_ops end%nat.
Definition const_types := [CONST_BOOLEAN; CONST_DOUBLE; CONST_FLOAT; CONST_INTEGER; CONST_LITERAL].
Definition assign_types := [ASSIGN; ASSIGN_ADDITION; ASSIGN_BITAND; ASSIGN_BITCOMPLEMENT; ASSIGN_BITOR; ASSIGN_DIVIDE;
  ASSIGN_MODULO; ASSIGN_MULTIPLY; ASSIGN_SUBTRACT].
Definition step_types := [OPERATOR_INCREMENT; OPERATOR_DECREMENT].

(** Tokens whose category is the one of their type. *)
Definition well_made (t : token) : Prop :=
  (k_cat t = Constant <-> k_type t ∈ const_types) /\ (k_cat t = Assignment <-> k_type t ∈ assign_types).

(** How the tokens of an expression end: behind a name a [(], [=] or [++] would belong to the
    name; an open end is one that takes in everything that follows. *)
Inductive ending := Closed | Name | Open.

(** The places of the grammar. *)
Inductive place := Term | Prefixed | Suffixed | Infix | Lvl (k : nat).

(** [denotes true p e ts x]: the tokens [ts], used at place [p], denote [x] and end like [e].
    - Term: literals, names, calls, brackets, keyword forms; type casts and assignments, which
      reach to the end of the expression;
    - Prefixed: a term behind at most one of + - !;
    - Suffixed: behind it any number of ++ -- !;
    - Infix: a suffixed operand, or a prefixed one with [is T], [? a : b] or [?: b];
    - Lvl k: a left-associative chain of the operators of level k.
    [denotes false] is the same without the conditions that make the grammar unambiguous, and
    with stray tokens allowed behind an argument of a call. *)
Inductive denotes (strict : bool) : place -> ending -> list token -> sx -> Prop :=
| d_lit t : k_type t ∈ const_types -> denotes strict Term Closed [t] (XLit (k_type t) (k_text t))
| d_name t : k_type t = IDENTIFIER -> denotes strict Term Name [t] (XName (k_text t))
| d_step t u : k_type t = IDENTIFIER -> k_type u ∈ step_types ->
    denotes strict Term Closed [t; u] (XStep (k_text t) (k_type u) (k_text u))
| d_paren o ts c e x : k_type o = PARENTHESIS_OPEN -> k_type c = PARENTHESIS_CLOSE ->
    denotes strict (Lvl 3) e ts x -> denotes strict Term Closed (o :: ts ++ [c]) x
| d_call t o ts c l : k_type t = IDENTIFIER -> k_type o = PARENTHESIS_OPEN -> k_type c = PARENTHESIS_CLOSE ->
    (strict = false -> nested PARENTHESIS_OPEN PARENTHESIS_CLOSE ts) -> denotes_args strict ts l ->
    denotes strict Term Closed (t :: o :: ts ++ [c]) (XCall (k_text t) l)
| d_cast t u ts e x : k_type t = IDENTIFIER -> k_type u ∈ IDENTIFIER :: KEYWORD :: const_types ->
    denotes strict (Lvl 3) e (u :: ts) x -> denotes strict Term Open (t :: u :: ts) (XCast (k_text t) x)
| d_conv w lt t gt o ts c e x : k_type w = KEYWORD -> k_text w = $"cast" -> k_type lt = COMPARE_LESS ->
    k_type gt = COMPARE_GREATER -> k_type o = PARENTHESIS_OPEN -> k_type c = PARENTHESIS_CLOSE ->
    (strict = true -> k_type t = IDENTIFIER) -> denotes strict (Lvl 3) e ts x ->
    denotes strict Term Closed (w :: lt :: t :: gt :: o :: ts ++ [c]) (XConv (k_text t) x)
| d_typeid w o ts c e x : k_type w = KEYWORD -> k_text w = $"typeid" -> k_type o = PARENTHESIS_OPEN ->
    k_type c = PARENTHESIS_CLOSE -> denotes strict (Lvl 3) e ts x ->
    denotes strict Term Closed (w :: o :: ts ++ [c]) (XTypeid x)
| d_assign t u ts e x : k_type t = IDENTIFIER -> k_type u ∈ assign_types ->
    denotes strict (Lvl 3) e ts x -> denotes strict Term Open (t :: u :: ts) (XAssign (k_text t) (k_type u) x)
| d_term e ts x : denotes strict Term e ts x -> denotes strict Prefixed e ts x
| d_sign t e ts x : k_type t = MATH_ADDITION \/ k_type t = MATH_SUBTRACT -> denotes strict Term e ts x ->
    denotes strict Prefixed e (t :: ts) (XSign (k_type t) (k_text t) x)
| d_not t e ts x : k_type t = OPERATOR_NOT -> denotes strict Term e ts x ->
    denotes strict Prefixed e (t :: ts) (XNot (k_text t) x)
| d_prefixed e ts x : denotes strict Prefixed e ts x -> denotes strict Suffixed e ts x
| d_post e ts t x : denotes strict Suffixed e ts x -> (strict = true -> e = Closed) -> k_type t ∈ step_types ->
    denotes strict Suffixed Closed (ts ++ [t]) (XPost (k_type t) (k_text t) x)
| d_valid e ts t x : denotes strict Suffixed e ts x -> (strict = true -> e <> Open) -> k_type t = OPERATOR_NOT ->
    denotes strict Suffixed Closed (ts ++ [t]) (XValid x)
| d_suffixed e ts x : denotes strict Suffixed e ts x -> denotes strict Infix e ts x
| d_is e ts i t x : denotes strict Prefixed e ts x -> (strict = true -> e <> Open) -> k_type i = OPERATOR_IS ->
    (strict = true -> k_type t = IDENTIFIER) -> denotes strict Infix Closed (ts ++ [i; t]) (XIs x (k_text t))
| d_tern e ts q e1 ts1 c e2 ts2 x y z : denotes strict Prefixed e ts x -> (strict = true -> e <> Open) ->
    k_type q = QUESTION_MARK -> denotes strict (Lvl 3) e1 ts1 y -> k_type c = COLON -> denotes strict (Lvl 3) e2 ts2 z ->
    denotes strict Infix Open (ts ++ q :: ts1 ++ c :: ts2) (XTern x y z)
| d_elvis e ts q c e2 ts2 x z : denotes strict Prefixed e ts x -> (strict = true -> e <> Open) ->
    k_type q = QUESTION_MARK -> k_type c = COLON -> denotes strict (Lvl 3) e2 ts2 z ->
    denotes strict Infix Open (ts ++ q :: c :: ts2) (XElvis x z)
| d_infix e ts x : denotes strict Infix e ts x -> denotes strict (Lvl 0) e ts x
| d_level k e ts x : denotes strict (Lvl k) e ts x -> denotes strict (Lvl (S k)) e ts x
| d_mul e1 ts1 t e2 ts2 x y : denotes strict (Lvl 0) e1 ts1 x -> (strict = true -> e1 <> Open) -> k_type t ∈ ops 0 ->
    denotes strict Infix e2 ts2 y ->
    denotes strict (Lvl 0) e2 (ts1 ++ t :: ts2) (XBin 0 (k_type t) (k_text t) x y)
| d_bin k e1 ts1 t e2 ts2 x y : denotes strict (Lvl (S k)) e1 ts1 x -> (strict = true -> e1 <> Open) ->
    k_type t ∈ ops (S k) -> denotes strict (Lvl k) e2 ts2 y ->
    denotes strict (Lvl (S k)) e2 (ts1 ++ t :: ts2) (XBin (S k) (k_type t) (k_text t) x y)
with denotes_args (strict : bool) : list token -> list sx -> Prop :=
| da_nil : denotes_args strict [] []
| da_one e ts x : denotes strict (Lvl 3) e ts x -> denotes_args strict ts [x]
| da_more e ts x j t ts' l : denotes strict (Lvl 3) e ts x -> (strict = true -> j = []) -> k_type t = COMMA ->
    denotes_args strict ts' l -> (strict = true -> ts' <> []) -> denotes_args strict (ts ++ j ++ t :: ts') (x :: l).

(** Tokens that would continue an expression that ends like [e]: operators, suffixes, and behind
    a name (or an open end, which may be a name) whatever belongs to a name. *)
Definition continues (e : ending) (t : token) : Prop :=
  (exists k, k_type t ∈ ops k) \/
  k_type t ∈ [OPERATOR_IS; OPERATOR_RANGE; QUESTION_MARK; BRACKET_OPEN; OPERATOR_DECREMENT; OPERATOR_INCREMENT;
              OPERATOR_NOT; OPERATOR_SCOPE] \/
  (e <> Closed /\ k_type t ∈ IDENTIFIER :: KEYWORD :: PARENTHESIS_OPEN :: const_types ++ assign_types).

(** [rest] starts with a token that does not continue the expression in front of it. *)
Definition ends_before (e : ending) (rest : list token) : Prop :=
  exists t r, rest = t :: r /\ ~ continues e t.

(** ** The typed tree of a surface tree *)
(** Errors come up from the left-most operand that has one. The node built for an operator and
    its typed operands is the one of the tree generator ([node], [sign_node], ...). *)
Definition tok (ty : ttype) (s : str) : token := Token CNone ty s 0 0 false.

Section Elab.
Context (env : penv).

Definition named (x : str) : res symk :=
  match pe_name env x with Some k => Ok k | None => Throw "InvalidSymbol" end.

Fixpoint elab (x : sx) : res pexpr :=
  match x with
  | XLit ty s => match literal (pe_io env) ty s with Some v => Ok (PLit v) | None => Throw "SyntaxError" end
  | XName x => let! k := named x in Ok (PSym x k)
  | XCall f args =>
      let! _ := named f in
      let! l := (fix go l := match l with
                             | [] => Ok []
                             | a :: l => let! p := elab a in let! r := go l in Ok (p :: r)
                             end) args in
      call_node env f l
  | XCast t a =>
      let! k := named t in
      match k with
      | KType ty _ => let! p := elab a in Ok (PCast ty p)
      | _ => UB
      end
  | XConv t a =>
      let! k := named t in
      match k with
      | KType ty _ => let! p := elab a in cast_node env ty p
      | _ => Throw "InvalidSymbol"
      end
  | XTypeid a => let! p := elab a in Ok (PTypeid p)
  | XAssign x op a => let! k := named x in let! p := elab a in assign_node env (tok op []) x k p
  | XSign op s a => let! p := elab a in sign_node env (tok op s) p
  | XNot s a => let! p := elab a in Ok (PNot s p)
  | XStep x op s => let! k := named x in step_node (tok op s) x k
  | XPost op s a => let! p := elab a in Ok (PUn op s false p)
  | XValid a => let! p := elab a in Ok (PUn OPERATOR_VALIDATE [] false p)
  | XIs a t => let! p := elab a in let! k := named t in Ok (PIs p (sym_type k))
  | XTern c a b => let! p := elab c in let! q := elab a in let! r := elab b in ternary_node p (Some q) r
  | XElvis c b => let! p := elab c in let! r := elab b in ternary_node p None r
  | XBin k op s a b => let! p := elab a in let! q := elab b in node env k (tok op s) p q
  end.
Definition elab_args : list sx -> res (list pexpr) :=
  fix go l := match l with
              | [] => Ok []
              | a :: l => let! p := elab a in let! r := go l in Ok (p :: r)
              end.
End Elab.

(** The nodes an infix operator may become. *)
Inductive operator_node : ttype -> str -> pexpr -> pexpr -> pexpr -> Prop :=
| on_bin op s p q t : operator_node op s p q (PBin op s p q t)
| on_bool op s p q : op ∉ [COMPARE_UNEQUAL; COMPARE_EQUAL_CONTENT; COMPARE_UNEQUAL_CONTENT] ->
    operator_node op s p q (PBool op s p q)
| on_meth op s p q t : op ∉ [COMPARE_UNEQUAL; COMPARE_EQUAL_CONTENT; COMPARE_UNEQUAL_CONTENT] ->
    operator_node op s p q (PMeth p s q t)
| on_same s p q t : operator_node COMPARE_EQUAL_CONTENT s p q (PMeth p ($"==") q t)
| on_unequal s p q : operator_node COMPARE_UNEQUAL s p q (PNot [] (PBool COMPARE_EQUAL ($"==") p q))
| on_unequal_method op s p q t : op ∈ [COMPARE_UNEQUAL; COMPARE_UNEQUAL_CONTENT] ->
    operator_node op s p q (PNot [] (PMeth p ($"==") q t)).

(** [tree_of io p x]: the typed tree [p] has the structure of [x]. Operators on objects are
    method calls; [!=] is the negation of [==], and content comparisons are [==] methods. *)
Inductive tree_of (io : fio) : pexpr -> sx -> Prop :=
| t_lit ty s v : literal io ty s = Some v -> tree_of io (PLit v) (XLit ty s)
| t_name x k : tree_of io (PSym x k) (XName x)
| t_call f ps l t : trees_of io ps l -> tree_of io (PCall f ps t) (XCall f l)
| t_cast t ty p a : tree_of io p a -> tree_of io (PCast ty p) (XCast t a)
| t_conv t ty p a : tree_of io p a -> tree_of io (PCast ty p) (XConv t a)
| t_typeid p a : tree_of io p a -> tree_of io (PTypeid p) (XTypeid a)
| t_assign x k p a t : tree_of io p a -> tree_of io (PAssign x k p t) (XAssign x ASSIGN a)
| t_assign_method x k p a t : tree_of io p a -> tree_of io (PMeth (PSym x k) ($"=") p t) (XAssign x ASSIGN a)
| t_compound x k p q a t op op' s : compound op = Some (op', s) -> tree_of io q a ->
    (exists t', p = PBin op' s (PSym x k) q t') \/ (exists t', p = PMeth (PSym x k) s q t') ->
    tree_of io (PAssign x k p t) (XAssign x op a)
| t_compound_method x k p q a t op op' s : compound op = Some (op', s) -> tree_of io q a ->
    (exists t', p = PBin op' s (PSym x k) q t') \/ (exists t', p = PMeth (PSym x k) s q t') ->
    tree_of io (PMeth (PSym x k) ($"=") p t) (XAssign x op a)
| t_sign op s p a : tree_of io p a -> tree_of io (PUn op s false p) (XSign op s a)
| t_not s p a : tree_of io p a -> tree_of io (PNot s p) (XNot s a)
| t_step x k op s : tree_of io (PUn op s true (PSym x k)) (XStep x op s)
| t_post op s p a : tree_of io p a -> tree_of io (PUn op s false p) (XPost op s a)
| t_valid p a : tree_of io p a -> tree_of io (PUn OPERATOR_VALIDATE [] false p) (XValid a)
| t_is p a ty t : tree_of io p a -> tree_of io (PIs p ty) (XIs a t)
| t_tern p q r c a b : tree_of io p c -> tree_of io q a -> tree_of io r b -> tree_of io (PTern p q r) (XTern c a b)
| t_elvis p r c b : tree_of io p c -> tree_of io r b -> tree_of io (PElvis p r) (XElvis c b)
| t_bin k op s p q a b n : tree_of io p a -> tree_of io q b -> operator_node op s p q n ->
    tree_of io n (XBin k op s a b)
with trees_of (io : fio) : list pexpr -> list sx -> Prop :=
| ts_nil : trees_of io [] []
| ts_cons p a ps l : tree_of io p a -> trees_of io ps l -> trees_of io (p :: ps) (a :: l).

(** ** Token texts of surface trees *)
(** Trees whose leaves and operators can be written down. *)
Inductive writable : sx -> Prop :=
| w_lit ty s : ty ∈ const_types -> writable (XLit ty s)
| w_name x : writable (XName x)
| w_call f l : (forall a, a ∈ l -> writable a) -> writable (XCall f l)
| w_conv t a : writable a -> writable (XConv t a)
| w_typeid a : writable a -> writable (XTypeid a)
| w_sign op s a : op = MATH_ADDITION \/ op = MATH_SUBTRACT -> writable a -> writable (XSign op s a)
| w_not s a : writable a -> writable (XNot s a)
| w_step x op s : op ∈ step_types -> writable (XStep x op s)
| w_post op s a : op ∈ step_types -> writable a -> writable (XPost op s a)
| w_valid a : writable a -> writable (XValid a)
| w_is a t : writable a -> writable (XIs a t)
| w_assign x op a : op ∈ assign_types -> writable a -> writable (XAssign x op a)
| w_tern c a b : writable c -> writable a -> writable b -> writable (XTern c a b)
| w_elvis c b : writable c -> writable b -> writable (XElvis c b)
| w_bin k op s a b : (k < 4)%nat -> op ∈ ops k -> writable a -> writable b -> writable (XBin k op s a b).

Definition cat_of (ty : ttype) : category :=
  if ty_in ty const_types then Constant else if ty_in ty assign_types then Assignment else CNone.
Definition wtok (ty : ttype) (s : str) : token := Token (cat_of ty) ty s 0 0 false.
Definition po := wtok PARENTHESIS_OPEN ($"(").
Definition pc := wtok PARENTHESIS_CLOSE ($")").

(** Fully parenthesised: brackets around every operand and around the whole. *)
Fixpoint full (x : sx) : list token :=
  match x with
  | XLit ty s => [po; wtok ty s; pc]
  | XName x => [po; wtok IDENTIFIER x; pc]
  | XCall f args =>
      po :: wtok IDENTIFIER f :: po ::
      (fix go l := match l with
                   | [] => []
                   | [a] => full a
                   | a :: l => full a ++ wtok COMMA ($",") :: go l
                   end) args ++ [pc; pc]
  | XCast t a => []
  | XConv t a => po :: wtok KEYWORD ($"cast") :: wtok COMPARE_LESS ($"<") :: wtok IDENTIFIER t ::
                 wtok COMPARE_GREATER ($">") :: po :: full a ++ [pc; pc]
  | XTypeid a => po :: wtok KEYWORD ($"typeid") :: po :: full a ++ [pc; pc]
  | XAssign x op a => po :: wtok IDENTIFIER x :: wtok op [] :: full a ++ [pc]
  | XSign op s a => po :: wtok op s :: full a ++ [pc]
  | XNot s a => po :: wtok OPERATOR_NOT s :: full a ++ [pc]
  | XStep x op s => [po; wtok IDENTIFIER x; wtok op s; pc]
  | XPost op s a => po :: full a ++ [wtok op s; pc]
  | XValid a => po :: full a ++ [wtok OPERATOR_NOT ($"!"); pc]
  | XIs a t => po :: full a ++ [wtok OPERATOR_IS ($"is"); wtok IDENTIFIER t; pc]
  | XTern c a b => po :: full c ++ wtok QUESTION_MARK ($"?") :: full a ++ wtok COLON ($":") :: full b ++ [pc]
  | XElvis c b => po :: full c ++ wtok QUESTION_MARK ($"?") :: wtok COLON ($":") :: full b ++ [pc]
  | XBin k op s a b => po :: full a ++ wtok op s :: full b ++ [pc]
  end.

(** ** Brackets of all kinds together *)
Definition bracket_kinds := [(BRACKET_OPEN, BRACKET_CLOSE); (BRACKET_CURLY_OPEN, BRACKET_CURLY_CLOSE);
  (PARENTHESIS_OPEN, PARENTHESIS_CLOSE)].
(** Every bracket is closed by its own kind, in the right order; no quotation marks. *)
Inductive bracketed : list token -> Prop :=
| br_nil : bracketed []
| br_other t l : k_type t ∉ [BRACKET_OPEN; BRACKET_CLOSE; BRACKET_CURLY_OPEN; BRACKET_CURLY_CLOSE; PARENTHESIS_OPEN;
    PARENTHESIS_CLOSE; QUOTATION_DOUBLE] -> bracketed l -> bracketed (t :: l)
| br_pair o b c l : (k_type o, k_type c) ∈ bracket_kinds -> bracketed b -> bracketed l -> bracketed (o :: b ++ c :: l).

(** The text of a chain of operators of one level. *)
Fixpoint chain_tokens (l : list (token * list token * sx)) : list token :=
  match l with [] => [] | (t, ts, _) :: l => t :: ts ++ chain_tokens l end.
(** Combined from the left. *)
Definition chain_left (k : nat) (x : sx) (l : list (token * list token * sx)) : sx :=
  fold_left (fun a i => XBin k (k_type (fst (fst i))) (k_text (fst (fst i))) a (snd i)) l x.
